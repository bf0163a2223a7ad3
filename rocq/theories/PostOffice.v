(** Model of the redistribution of row-wise data: cpp/dolfinx/common/MPI.h
    (postoffice_exchange, distribute_from_postoffice, distribute_data) and
    cpp/dolfinx/common/MPI.cpp (postoffice_plan).

    Simplifications: an array with shape[1] columns is the list of its rows, and rows
    are abstract values (MPI moves whole rows with a contiguous data type; [copy_n]
    copies whole rows).  The index buffer and the row buffer of postoffice_exchange are
    filled at the same positions and sent with the same sizes and displacements; they
    are one buffer of (index, row) pairs here.  A row offset of -1, used on a rank that
    is not in the communicator of the data and then has no rows, is [None].  A failing
    [assert] is [None]. *)
From Verif Require Import Base Algo World Ranges IndexMap SubMap.
Open Scope nat_scope.

(** radix_sort / sort_by_perm on the rank column (stable, theorem C04): MPI.cpp:358-367,
    MPI.h:547-556. *)
Definition ksort {V} (l : list (nat * V)) : list (nat * V) := isort (fun a b => fst a <=? fst b) l.

(** The loops over runs of equal ranks, MPI.cpp:375-395 and MPI.h:561-570: the rank and
    the values of each run.  The fuel is the length of the list. *)
Fixpoint key_runs {V} (fuel : nat) (l : list (nat * V)) : option (list (nat * list V)) :=
  match l with
  | [] => Some []
  | (k, _) :: _ =>
    match fuel with
    | 0 => None
    | S f => let n := prefix_len (fun y => fst y =? k) l in
             rest <- key_runs f (skipn n l) ;; Some ((k, map snd (firstn n l)) :: rest)
    end
  end.

Section PostOffice.
Context {A : Type}.
Variable zero : A.
Variable P : nat.
(** The two results of the overlapped consensus round, MPI.h:577-579. *)
Variables nbx0 nbx1 : (nat -> list nat) -> nat -> list nat.

(** MPI::index_owner with its [assert] *)
Definition owner_of (shape0 idx : nat) : option nat :=
  if idx <? shape0 then
    a <- index_owner (Z.of_nat P) (Z.of_nat idx) (Z.of_nat shape0) ;; Some (Z.to_nat a)
  else None.
Definition po_range (rank shape0 : nat) : nat * nat :=
  let '(a, b) := local_range (Z.of_nat rank) (Z.of_nat shape0) (Z.of_nat P) in (Z.to_nat a, Z.to_nat b).

(** [idx >= rank_offset and idx < rank_offset + shape0_local]: the local row. *)
Definition held (rank_offset : option nat) (shape0_local idx : nat) : option nat :=
  match rank_offset with
  | Some o => if (o <=? idx) && (idx <? o + shape0_local) then Some (idx - o) else None
  | None => None
  end.

(** MPI.cpp:332-398 *)
Definition postoffice_plan (rank shape0_local shape0 : nat) (rank_offset : option nat)
  : option (list nat * list nat * list (option nat)) :=
  d2i <- omap (fun i => o <- rank_offset ;; dest <- owner_of shape0 (i + o) ;;
                        Some (if dest =? rank then [] else [(dest, i)])) (seq 0 shape0_local) ;;
  let dest_to_index := ksort (concat d2i) in
  rs <- key_runs (length dest_to_index) dest_to_index ;;
  pos_to_neigh_rank <-
    ofold (fun pos (nr : nat * (nat * list nat)) =>
             ofold (fun pos i => upd pos i (Some (fst nr))) (snd (snd nr)) pos)
          (combine (seq 0 (length rs)) rs) (repeat None shape0_local) ;;
  Some (map fst rs, map (fun r => length (snd r)) rs, pos_to_neigh_rank).

Section World.
(** Rows, offset, and requests of every rank; the number of rows in all. *)
Variables (x : nat -> list A) (rank_offset : nat -> option nat) (shape0 : nat).
Variable indices : nat -> list nat.

Definition plan (q : nat) := postoffice_plan q (length (x q)) shape0 (rank_offset q).
Definition plan_dest (q : nat) : list nat := match plan q with Some (d, _, _) => d | None => [] end.

(** MPI.h:401-423 *)
Definition po_send (q : nat) : option (sbuf (nat * A)) :=
  '(_, num_items_per_dest, pos_to_neigh_rank) <- plan q ;;
  kvs <- omap (fun i => nd <- nth_error pos_to_neigh_rank i ;; row <- nth_error (x q) i ;;
                        o <- rank_offset q ;;
                        Some (match nd with Some k => [(k, (i + o, row))] | None => [] end))
              (seq 0 (length (x q))) ;;
  let send_disp := psums num_items_per_dest in
  '(_, buf) <- ofold place (concat kvs) (send_disp, repeat (0, zero) (last send_disp 0)) ;;
  Some (buf, (num_items_per_dest, send_disp)).

(** MPI.h:382-470: positions in the post-office range, and rows. *)
Definition postoffice_exchange (post_src : nat -> list nat) (r : nat) : option (list nat * list A) :=
  '(recv, _) <- exchange P post_src plan_dest po_send r ;;
  let r0 := fst (po_range r shape0) in
  index_local <- omap (fun ir : nat * A => if r0 <=? fst ir then Some (fst ir - r0) else None) recv ;;
  Some (index_local, map snd recv).

(** MPI.h:534-556: (rank, (index, position)) for the rows to ask for. *)
Definition src_to_index (q : nat) : option (list (nat * (nat * nat))) :=
  l <- omap (fun i => idx <- nth_error (indices q) i ;;
              match held (rank_offset q) (length (x q)) idx with
              | Some _ => Some []
              | None => src <- owner_of shape0 idx ;;
                        Some (if src =? q then [] else [(src, (idx, i))])
              end) (seq 0 (length (indices q))) ;;
  Some (ksort (concat l)).

(** MPI.h:558-571, 606-619: the requests as sent; the positions they are for. *)
Definition requests (q : nat) : option (list nat * (sbuf nat * list nat)) :=
  s2i <- src_to_index q ;;
  rs <- key_runs (length s2i) s2i ;;
  let sizes := map (fun r : nat * list (nat * nat) => length (snd r)) rs in
  Some (map fst rs, ((map (fun e => fst (snd e)) s2i, (sizes, psums sizes)), map (fun e => snd (snd e)) s2i)).
Definition req_src (q : nat) : list nat := match requests q with Some (s, _) => s | None => [] end.
Definition req_send (q : nat) : option (sbuf nat * list nat) := '(_, s) <- requests q ;; Some s.
(** MPI.h:577-579 *)
Definition post_src (q : nat) : list nat := nbx0 plan_dest q.
Definition req_dest (q : nat) : list nat := nbx1 req_src q.

(** MPI.h:639-648 *)
Definition post_indices_map (r : nat) (post_indices : list nat) : option (list (option nat)) :=
  let '(a, b) := po_range r shape0 in
  ofold (fun m pi => upd m (fst pi) (snd pi))
        (combine post_indices (map Some (seq 0 (length post_indices)))) (repeat None (b - a)).

(** MPI.h:661-668, 719-723: from the 'post bag'. *)
Definition from_bag (r : nat) (pm : list (option nat)) (post_x : list A) (index : nat) : option A :=
  let a := fst (po_range r shape0) in
  if a <=? index then
    pos <- nth_error pm (index - a) ;;
    match pos with Some p => nth_error post_x p | None => None end
  else None.

(** MPI.h:650-670: answers to the requests received. *)
Definition answers (r : nat) : option (list A * list nat) :=
  '(post_indices, post_x) <- postoffice_exchange post_src r ;;
  '(recv_index, num_items_recv) <- exchange P req_dest req_src (fun q => '(s, _) <- req_send q ;; Some s) r ;;
  pm <- post_indices_map r post_indices ;;
  rows <- omap (fun index => match held (rank_offset r) (length (x r)) index with
                             | Some l => nth_error (x r) l
                             | None => from_bag r pm post_x index
                             end) recv_index ;;
  Some (rows, num_items_recv).

(** MPI.h:505-730 *)
Definition distribute_from_postoffice (r : nat) : option (list A) :=
  '(post_indices, post_x) <- postoffice_exchange post_src r ;;
  pm <- post_indices_map r post_indices ;;
  '(_, pos) <- req_send r ;;
  recv_buffer_data <- reply P req_src req_dest answers req_send r ;;
  index_pos_to_buffer <- ofold (fun m pi => upd m (fst pi) (snd pi))
        (combine pos (map Some (seq 0 (length pos)))) (repeat None (length (indices r))) ;;
  omap (fun i =>
    index <- nth_error (indices r) i ;;
    match held (rank_offset r) (length (x r)) index with
    | Some l => nth_error (x r) l
    | None => pb <- nth_error index_pos_to_buffer i ;;
              match pb with
              | Some p => nth_error recv_buffer_data p
              | None => from_bag r pm post_x index
              end
    end) (seq 0 (length (indices r))).
End World.

(** MPI.h:475-501 *)
Definition distribute_to_postoffice (x : nat -> list A) (rank_offset : nat -> option nat) (shape0 r : nat)
  : option (list nat * list A) :=
  postoffice_exchange x rank_offset shape0 (fun q => nbx0 (plan_dest x rank_offset shape0) q) r.

(** MPI_Exscan on the communicator of the data, whose ranks are listed in [comm1] (in
    the order of that communicator); [None] on the other ranks. *)
Fixpoint exscan_on (comm1 : list nat) (f : nat -> nat) (acc r : nat) : option nat :=
  match comm1 with
  | [] => None
  | s :: t => if s =? r then Some acc else exscan_on t f (acc + f s) r
  end.

(** MPI.h:734-759; the exception for rows on a rank outside [comm1] is [None]. *)
Definition distribute_data (comm1 : list nat) (x : nat -> list A) (indices : nat -> list nat) (r : nat)
  : option (list A) :=
  let n := fun q => length (x q) in
  let shape0 := allreduce_sum P n in
  if forallb (fun q => mem q comm1 || (n q =? 0)) (seq 0 P) then
    distribute_from_postoffice x (exscan_on comm1 n 0) shape0 indices r
  else None.
End PostOffice.
