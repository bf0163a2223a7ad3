(** Model of determine_sharing_ranks in cpp/dolfinx/mesh/Topology.cpp.

    Simplifications: input indices are integers; the ranks of a neighbourhood are positions in
    the lists of neighbours; the random engine is any choice [pick rank i n] of a number below
    [n] for the [i]th index on the post office [rank].  The adjacency list that is returned is
    the list of its rows (theorem C01).  Failing [assert]s and accesses outside arrays are
    [None]. *)
From Verif Require Import Base Algo World Ranges IndexMap PostOffice MeshCreate.
Open Scope nat_scope.

(** [static_cast<int>] of an [int64_t] (two's complement) *)
Definition narrow (v : Z) : Z := ((v + 2 ^ 31) mod 2 ^ 32 - 2 ^ 31)%Z.

(** [operator<=] of [std::array<.., 3>] *)
Definition ztriple_leb (a b : Z * (nat * nat)) : bool :=
  (fst a <? fst b)%Z || ((fst a =? fst b)%Z && pair_leb (snd a) (snd b)).

(** Topology.cpp:174-205: the loop over runs of equal indices.  The fuel is the length. *)
Fixpoint zruns {V} (fuel : nat) (l : list (Z * V)) : option (list (list (Z * V))) :=
  match l with
  | [] => Some []
  | x :: _ =>
    match fuel with
    | 0 => None
    | S f => let n := prefix_len (fun y => fst y =? fst x)%Z l in
             rest <- zruns f (skipn n l) ;; Some (firstn n l :: rest)
    end
  end.

(** [std::iter_swap(begin, begin + k)] *)
Definition swap_first (l : list nat) (k : nat) : option (list nat) :=
  x <- nth_error l 0 ;; y <- nth_error l k ;; l <- upd l 0 y ;; upd l k x.

(** Topology.cpp:276-291: number of ranks, ranks, number of ranks, ... *)
Fixpoint unpack_ranks (fuel : nat) (buf : list nat) : option (list (list nat)) :=
  match buf with
  | [] => Some []
  | n :: t =>
    match fuel with
    | 0 => None
    | S f => ranks <- slice t 0 n ;; rest <- unpack_ranks f (skipn n t) ;; Some (ranks :: rest)
    end
  end.

Section Sharing.
Variables (P : nat) (nbx : (nat -> list nat) -> nat -> list nat) (pick : nat -> nat -> nat -> nat).
Variable indices : nat -> list Z.

(** Topology.cpp:54-61 *)
Definition max_index (q : nat) : Z := match indices q with [] => 0%Z | x :: t => fold_right Z.max x t end.
Definition global_range : Z := (fold_right Z.max (max_index 0) (map max_index (seq 0 P)) + 1)%Z.
(** MPI::index_owner with its [assert]; a negative index is a huge [std::size_t]. *)
Definition post_office (idx : Z) : option nat :=
  if (0 <=? idx)%Z && (idx <? global_range)%Z then
    a <- index_owner (Z.of_nat P) idx global_range ;; Some (Z.to_nat a)
  else None.

(** Topology.cpp:63-87; both sorts give the pairs in the order of (rank, position). *)
Definition sh_pairs (q : nat) : option (list (nat * nat)) :=
  omap (fun i => idx <- nth_error (indices q) i ;; d <- post_office idx ;; Some (d, i)) (seq 0 (length (indices q))).
Definition sh_runs (q : nat) : option (list (nat * list nat)) :=
  l <- sh_pairs q ;; let dest_to_index := ksort l in key_runs (length dest_to_index) dest_to_index.
(** Topology.cpp:89-114 *)
Definition sh_dest (q : nat) : list nat := match sh_runs q with Some rs => map fst rs | None => [] end.
Definition sh_src (q : nat) : list nat := isort Nat.leb (nbx sh_dest q).
(** Topology.cpp:122-152 *)
Definition sh_send (q : nat) : option (sbuf Z) :=
  rs <- sh_runs q ;;
  buf <- omap (fun i => v <- nth_error (indices q) i ;; Some (narrow v)) (concat (map snd rs)) ;;
  let sizes := map (fun r : nat * list nat => length (snd r)) rs in
  Some (buf, (sizes, psums sizes)).

(** Topology.cpp:154-205: the groups of (index, (position, source)) with equal index. *)
Definition sh_groups (r : nat) : option (list (list (Z * (nat * nat))) * (list nat * nat)) :=
  '(recv_buffer, recv_sizes) <- exchange P sh_src sh_dest sh_send r ;;
  let recv_disp := psums recv_sizes in
  blocks <- omap (fun p => b <- slice_at recv_buffer recv_disp p ;; a <- nth_error recv_disp p ;;
                           Some (combine b (map (fun i => (i, p)) (seq a (length b)))))
                 (seq 0 (length recv_sizes)) ;;
  let indices_list := isort ztriple_leb (concat blocks) in
  gs <- zruns (length indices_list) indices_list ;;
  Some (gs, (recv_sizes, last recv_disp 0)).

(** Topology.cpp:184-191: the owner (as a source) of group number [i]. *)
Definition group_owner (r i : nat) (g : list (Z * (nat * nat))) : option nat :=
  e <- nth_error g (if 1 <? length g then pick r i (length g) else 0) ;; Some (snd (snd e)).

(** Topology.cpp:166-167, 193-199: sizes of the answers by position and by source. *)
Definition per_pos (n : nat) (gs : list (list (Z * (nat * nat)))) : option (list nat) :=
  ofold (fun l (en : (Z * (nat * nat)) * nat) => upd l (fst (snd (fst en))) (snd en + 1))
        (concat (map (fun g => map (fun e => (e, length g)) g) gs)) (repeat 0 n).
Definition per_dest (n : nat) (gs : list (list (Z * (nat * nat)))) : option (list nat) :=
  ofold (fun l (en : (Z * (nat * nat)) * nat) => modify l (snd (snd (fst en))) (fun c => c + (snd en + 1)))
        (concat (map (fun g => map (fun e => (e, length g)) g) gs)) (repeat 0 n).

(** Topology.cpp:208-247 *)
Definition sh_answer (r : nat) : option (sbuf nat) :=
  '(gs, (recv_sizes, total)) <- sh_groups r ;;
  num_items_per_pos <- per_pos total gs ;;
  num_items_per_dest <- per_dest (length recv_sizes) gs ;;
  let bdisp := psums num_items_per_pos in
  let src := sh_src r in
  buf <- ofold (fun buf (ig : nat * list (Z * (nat * nat))) =>
           let g := snd ig in
           k <- group_owner r (fst ig) g ;; owner <- nth_error src k ;;
           ofold (fun buf e =>
                    bufferpos <- nth_error bdisp (fst (snd e)) ;;
                    ranks <- omap (fun x : Z * (nat * nat) => nth_error src (snd (snd x))) g ;;
                    j <- index_in owner ranks ;; ranks <- swap_first ranks j ;;
                    put buf bufferpos (length g :: ranks)) g buf)
         (combine (seq 0 (length gs)) gs) (repeat 0 (last (psums num_items_per_dest) 0)) ;;
  Some (buf, (num_items_per_dest, psums num_items_per_dest)).

(** Topology.cpp:49-294 *)
Definition determine_sharing_ranks (r : nat) : option (list (list nat)) :=
  _ <- sh_answer r ;;
  '(buf, _) <- exchange P sh_dest sh_src sh_answer r ;;
  unpack_ranks (length buf) buf.
End Sharing.
