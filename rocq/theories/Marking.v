(** Model of the marking of edges for refinement: cpp/dolfinx/refinement/plaza.h
    (compute_refinement_data, 460-533), plaza.cpp (enforce_rules) and utils.cpp
    (update_logical_edgefunction).

    Simplifications: a state of all ranks is a list with one entry per rank; the loop has a
    bound, and running into it is a failure.  The result of MPI_Allreduce is wrapped to 32
    bits.  Longest edges ([long], one per face) and the connectivity from faces to edges
    ([f2e]) are inputs; both are given for owned and ghost faces. *)
From Verif Require Import Base Algo World IndexMap MatrixPar.
Open Scope nat_scope.

Section Marking.
Variables (P : nat) (nbx : (nat -> list nat) -> nat -> list nat).
Variables (maps : nat -> imap) (f2e : nat -> list (list nat)) (long : nat -> list nat).

(** plaza.h:482-502: the ranks that share an edge with rank [r]; for every edge the positions
    in that list of the ranks that share it (data and offsets).  A failing assertion is
    [None]. *)
Definition edge_ranks (r : nat) : option (list nat * (list nat * list nat)) :=
  '(data, offsets) <- index_to_dest_ranks P nbx maps r ;;
  let ranks := sort_uniq data in
  pos <- omap (find_sorted ranks) data ;;
  Some (ranks, (pos, offsets)).
(** plaza.h:524-527: the neighbours in both directions *)
Definition edge_nbrs (r : nat) : list nat :=
  match edge_ranks r with Some (ranks, _) => ranks | None => [] end.

(** The marks of a rank and its lists [marked_for_update], one per neighbour. *)
Notation state := (list bool * list (list nat))%type.

(** plaza.h:515-519 and plaza.cpp:228-232 *)
Definition mark_edge (links : list nat * list nat) (s : state) (e : nat) : option state :=
  marks <- upd (fst s) e true ;;
  ranks <- slice_at (fst links) (snd links) e ;;
  upds <- ofold (fun u k => push_back u k e) ranks (snd s) ;;
  Some (marks, upds).

(** plaza.h:504-522 *)
Definition initial_marks (edges : option (nat -> list nat)) (r : nat) : option state :=
  '(ranks, links) <- edge_ranks r ;;
  let n := size_local (maps r) + num_ghosts (maps r) in
  let upds := repeat [] (length ranks) in
  match edges with
  | None => Some (repeat true n, upds)
  | Some es =>
    ofold (fun (s : state) e => m <- nth_error (fst s) e ;; if m then Some s else mark_edge links s e)
          (es r) (repeat false n, upds)
  end.

(** utils.cpp:47-101; [impl::local_to_global] (28-45) is the function of IndexMap.v. *)
Definition update_edges (world : nat -> option state) (r : nat) : option (list bool) :=
  '(data, _) <- exchange P edge_nbrs edge_nbrs
     (fun q => s <- world q ;;
               data <- omap (omap (local_to_global (maps q))) (snd s) ;;
               let sizes := map (@length nat) (snd s) in
               Some (concat data, (sizes, psums sizes))) r ;;
  s <- world r ;;
  ofold (fun marks g => let l := global_to_local (maps r) g in
                        if (l =? -1)%Z then None else upd marks (Z.to_nat l) true)
        data (fst s).

(** plaza.cpp:214-236, one face *)
Definition face_step (r : nat) (links : list nat * list nat) (acc : state * nat) (f : nat) : option (state * nat) :=
  let '(s, count) := acc in
  long_e <- nth_error (long r) f ;;
  m <- nth_error (fst s) long_e ;;
  if m then Some acc
  else
    es <- nth_error (f2e r) f ;;
    ms <- omap (nth_error (fst s)) es ;;
    if existsb (fun b => b) ms then s' <- mark_edge links s long_e ;; Some (s', S count)
    else Some acc.
(** plaza.cpp:210-237 *)
Definition sweep (r : nat) (marks : list bool) : option (state * nat) :=
  '(ranks, links) <- edge_ranks r ;;
  ofold (face_step r links) (seq 0 (length (f2e r))) ((marks, repeat [] (length ranks)), 0).

(** plaza.cpp:205-243 *)
Fixpoint enforce_rules (fuel : nat) (world : list state) : option (list (list bool)) :=
  match fuel with
  | 0 => None
  | S fuel' =>
    marks <- omap (update_edges (nth_error world)) (seq 0 P) ;;
    next <- omap (fun r => m <- nth_error marks r ;; sweep r m) (seq 0 P) ;;
    if (0 <? wrap32 (Z.of_nat (lsum (map snd next))))%Z
    then enforce_rules fuel' (map fst next)
    else Some (map (fun x => fst (fst x)) next)
  end.

(** plaza.h:482-535: the marks on every rank that are passed to compute_refinement; the lists
    in enforce_rules start empty (plaza.cpp:203). *)
Definition marked_edges (edges : option (nat -> list nat)) (fuel : nat) : option (list (list bool)) :=
  world <- omap (initial_marks edges) (seq 0 P) ;;
  marks <- omap (update_edges (nth_error world)) (seq 0 P) ;;
  world' <- omap (fun r => m <- nth_error marks r ;; '(ranks, _) <- edge_ranks r ;; Some (m, repeat [] (length ranks))) (seq 0 P) ;;
  enforce_rules fuel world'.
End Marking.
