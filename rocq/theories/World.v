(** Model of the message-passing layer: a program runs on ranks [0..P-1]; a quantity
    held by every rank is a function of the rank.  Collective operations are functions
    from what all ranks pass to what one rank gets.  A rank whose computation failed
    ([None]) makes every operation that needs its data fail. *)
From Verif Require Import Base Algo Nbx.

(** MPI_Allreduce(MPI_SUM), MPI_Exscan(MPI_SUM); on rank 0 the exscan result keeps its
    initial value 0 in all uses. *)
Definition allreduce_sum (P : nat) (f : nat -> nat) : nat := lsum (map f (seq 0 P)).
Definition exscan (f : nat -> nat) (r : nat) : nat := lsum (map f (seq 0 r)).

(** MPI_Allreduce(MPI_MAX) *)
Definition allreduce_max (P : nat) (f : nat -> nat) : nat := fold_right Nat.max 0 (map f (seq 0 P)).

Definition list_nat_eqb (a b : list nat) : bool :=
  (length a =? length b) && forallb (fun p => fst p =? snd p) (combine a b).

(** MPI_Neighbor_alltoall on the graph communicator made by
    MPI_Dist_graph_create_adjacent from each rank's [srcs] and [dests].  [send s] holds
    one value for each destination of [s].  [None] if the graph is inconsistent at this
    rank (a destination that does not expect this rank, a source that does not send to
    it): MPI then hangs or fails. *)
Definition neigh_alltoall {A} (P : nat) (srcs dests : nat -> list nat)
    (send : nat -> option (list A)) (r : nat) : option (list A) :=
  if forallb (fun d => (d <? P) && mem r (srcs d)) (dests r) then
    omap (fun s => if s <? P then
                     sb <- send s ;; k <- index_in r (dests s) ;; nth_error sb k
                   else None) (srcs r)
  else None.

(** A send buffer with sizes and displacements, one per destination. *)
Definition sbuf (A : Type) : Type := (list A * (list nat * list nat))%type.
Definition sblocks {A} (n : nat) (b : sbuf A) : option (list (list A)) :=
  let '(buf, (sizes, disp)) := b in
  omap (fun j => a <- nth_error disp j ;; m <- nth_error sizes j ;; slice buf a (a + m)) (seq 0 n).

(** MPI_Neighbor_alltoallv.  The receive displacements are the partial sums of the
    receive sizes [rsz] in every use, so the receive buffer is the concatenation of
    the blocks; a block that does not have the announced size is an error. *)
Definition neigh_alltoallv {A} (P : nat) (srcs dests : nat -> list nat)
    (send : nat -> option (sbuf A)) (rsz : nat -> option (list nat)) (r : nat) : option (list A) :=
  blocks <- neigh_alltoall P srcs dests
              (fun s => b <- send s ;; sblocks (length (dests s)) b) r ;;
  sizes <- rsz r ;;
  if list_nat_eqb (map (@length A) blocks) sizes then Some (concat blocks) else None.

(** The oracle for the consensus functions of Nbx.v: given every rank's destinations, a
    rank's sources in some order (theorem C07_nbx_result). *)
Definition nbx_oracle (P : nat) (nbx : (nat -> list nat) -> nat -> list nat) : Prop :=
  forall dests r, r < P -> Permutation (nbx dests r) (senders P dests r).

(** Edges agree: [r] is a destination of [s] exactly when [s] is a source of [r]. *)
Definition graph_ok (P : nat) (srcs dests : nat -> list nat) : Prop :=
  forall r, r < P ->
    NoDup (dests r) /\ NoDup (srcs r) /\
    (forall d, In d (dests r) <-> d < P /\ In r (srcs d)) /\
    (forall s, In s (srcs r) <-> s < P /\ In r (dests s)).
