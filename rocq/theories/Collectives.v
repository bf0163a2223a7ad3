(** Collective operations over a communicator, in the order in which a rank calls them.
    MPI requires the same order on every rank of the communicator; a program that
    does not respect it is erroneous (it hangs or mixes up data).

    Operations on a neighbourhood communicator are not listed. *)
From Verif Require Import Base IndexMap Scatterer.

Inductive coll := CDup | CBarrier | CExscan | CAllreduce | CDistGraph.
Definition coll_eqb (a b : coll) : bool :=
  match a, b with
  | CDup, CDup | CBarrier, CBarrier | CExscan, CExscan | CAllreduce, CAllreduce | CDistGraph, CDistGraph => true
  | _, _ => false
  end.
Definition colls_eqb (a b : list coll) : bool :=
  (length a =? length b) && forallb (fun p => coll_eqb (fst p) (snd p)) (combine a b).

(** All ranks call the same collective operations in the same order. *)
Definition matched (P : nat) (calls : nat -> list coll) : bool :=
  forallb (fun r => colls_eqb (calls r) (calls 0)) (seq 0 P).

(** IndexMap.cpp:865-889 *)
Definition imap_plain_calls : list coll := [CDup; CExscan; CAllreduce].
(** IndexMap.cpp:31-49 ([MPI_Ibarrier] of the consensus, MPI.cpp), 891-933 *)
Definition imap_make_calls (P : nat) : list coll := (if P =? 1 then [] else [CBarrier]) ++ [CDup; CExscan; CAllreduce].
(** MatrixCSR.h:716-720 *)
Definition matrix_calls : list coll := [CDistGraph].
(** Scatterer.h:65-97: two graph communicators unless there is one rank. *)
Definition scatterer_calls (P : nat) : list coll := if P =? 1 then [] else [CDistGraph; CDistGraph].
