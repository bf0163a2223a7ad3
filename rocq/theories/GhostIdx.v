(** Model of cpp/dolfinx/graph/partition.cpp: compute_ghost_indices, compute_local_to_global
    and compute_local_to_local.

    Simplifications: old (global) indices are integers, new ones naturals; a hash map with
    [emplace] is the list of its pairs in the order of insertion, where [find] returns the
    first pair with the key; the reduction of ranks to neighbour numbers is the position in
    the list of neighbours.  A failing [assert] or an access outside an array is [None]. *)
From Verif Require Import Base Algo World IndexMap.
Open Scope nat_scope.

(** [find(key)->second] in a map filled with [emplace] *)
Fixpoint zfind {V} (k : Z) (l : list (Z * V)) : option V :=
  match l with [] => None | (k', v) :: t => if (k' =? k)%Z then Some v else zfind k t end.

(** [std::pair] and [std::array<.., 2>] are compared lexicographically. *)
Definition zpair_leb (a b : Z * nat) : bool := ((fst a <? fst b) || ((fst a =? fst b) && (snd a <=? snd b)%nat))%Z.
(** [lower_bound] on the first component, with the [assert]s at 518-520, 637-640 *)
Definition zlookup (l : list (Z * nat)) (k : Z) : option nat :=
  match nth_error l (prefix_len (fun e => (fst e <? k)%Z) l) with
  | Some (k', v) => if (k' =? k)%Z then Some v else None
  | None => None
  end.

Section Ghosts.
Variables (P : nat) (pcx : (nat -> list nat) -> nat -> list nat).
Variables (owned ghosts : nat -> list Z) (owners : nat -> list nat) (threads : nat -> nat).

(** partition.cpp:420-440: the neighbours and the number of ghosts of each. *)
Definition count_owner (rank : nat) (st : list nat * list nat) (p : nat) : option (list nat * list nat) :=
  let '(neighbors, count) := st in
  if p =? rank then None   (* assert *)
  else match index_in p neighbors with
       | Some k => c <- incr count k ;; Some (neighbors, c)
       | None => Some (neighbors ++ [p], count ++ [1])
       end.
Definition neighbours_counts (q : nat) : option (list nat * list nat) := ofold (count_owner q) (owners q) ([], []).
Definition neighbors (q : nat) : list nat := match neighbours_counts q with Some (n, _) => n | None => [] end.
(** partition.cpp:444-445 *)
Definition in_edges (q : nat) : list nat := pcx neighbors q.

(** partition.cpp:455-477 *)
Definition gh_send (q : nat) : option (sbuf Z) :=
  '(nb, count) <- neighbours_counts q ;;
  let send_offsets := psums count in
  kvs <- omap (fun i => p <- nth_error (owners q) i ;; np <- index_in p nb ;; g <- nth_error (ghosts q) i ;; Some (np, g))
              (seq 0 (length (owners q))) ;;
  '(_, send_data) <- ofold place kvs (send_offsets, repeat 0%Z (last send_offsets 0)) ;;
  Some (send_data, (count, send_offsets)).
(** partition.cpp:479-495 *)
Definition gh_recv (q : nat) : option (list Z * list nat) := exchange P in_edges neighbors gh_send q.

(** partition.cpp:413-418, 498 *)
Definition offset_local (q : nat) : nat := lsum (map (fun s => length (owned s)) (seq 0 q)).
(** partition.cpp:500-546: the new index of an index that the process owns. *)
Definition old_to_new (q : nat) : list (Z * nat) := combine (owned q) (seq (offset_local q) (length (owned q))).
Definition new_index (q : nat) : Z -> option nat :=
  if 1 <? threads q then let t := isort zpair_leb (old_to_new q) in zlookup t
  else fun k => zfind k (old_to_new q).
Definition gh_answer (q : nat) : option (sbuf nat) :=
  '(recv_data, recv_sizes) <- gh_recv q ;;
  new <- omap (new_index q) recv_data ;;
  Some (new, (recv_sizes, psums recv_sizes)).

(** partition.cpp:548-574 *)
Definition compute_ghost_indices (r : nat) : option (list nat) :=
  '(send_data, _) <- gh_send r ;;
  _ <- gh_answer r ;;
  new_recv <- neigh_alltoallv P neighbors in_edges gh_answer (fun q => '(_, (count, _)) <- gh_send q ;; Some count) r ;;
  let old_to_new1 := combine send_data new_recv in
  omap (fun g => zfind g old_to_new1) (ghosts r).
End Ghosts.

(** partition.cpp:577-597: an exception is [None]. *)
Definition compute_local_to_global (global : list Z) (local : list nat) : option (list Z) :=
  if (length global =? 0) && (length local =? 0) then Some []
  else if negb (length global =? length local) then None
  else
    ofold (fun l2g lg => x <- nth_error l2g (fst lg) ;; if (x =? -1)%Z then upd l2g (fst lg) (snd lg) else Some l2g)
          (combine local global) (repeat (-1)%Z (fold_right Nat.max 0 local + 1)).

(** partition.cpp:600-644: [global_to_local1[l2g]] is read only when it is inside the array. *)
Definition compute_local_to_local (local0_to_global local1_to_global : list Z) : option (list nat) :=
  if negb (length local0_to_global =? length local1_to_global) then None
  else
    let g2l := isort zpair_leb (combine local1_to_global (seq 0 (length local1_to_global))) in
    let is_identity := match g2l with
                       | [] => false
                       | e :: _ => (fst e =? 0)%Z && (fst (last g2l (0%Z, 0%nat)) =? Z.of_nat (length g2l) - 1)%Z
                       end in
    omap (fun l2g => if is_identity && (0 <=? l2g)%Z && (l2g <? Z.of_nat (length g2l))%Z
                     then e <- nth_error g2l (Z.to_nat l2g) ;; Some (snd e)
                     else zlookup g2l l2g) local0_to_global.
