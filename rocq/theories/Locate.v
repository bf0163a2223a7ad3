(** Model of [locate_dofs_topological] (cpp/dolfinx/fem/DirichletBC.cpp:25-453).

    Simplifications: a quantity held by every rank is a function of the rank; exceptions and
    failed assertions are [None]; the element (the dof layout and its block sizes) is the
    same on all ranks; the entities have one dimension [dim], and [ec], [ce] are
    [connectivity(dim, tdim)] and [connectivity(tdim, dim)], [None] if not computed. *)
From Verif Require Import Base Algo World IndexMap.
Open Scope nat_scope.

(** DirichletBC.cpp:35-83 *)
Definition find_local_entity_index (ec ce : option (list (list nat))) (entities : list nat) : option (list (nat * nat)) :=
  ec <- ec ;; ce <- ce ;;
  omap (fun e => cells <- nth_error ec e ;; c <- hd_error cells ;; row <- nth_error ce c ;; i <- index_in e row ;; Some (c, i)) entities.

(** The layout: [entity_closure_dofs(dim, i)] for each local entity, the block size of the
    element, the block sizes of the dofmap and of the index map. *)
Record layout := mkLay { ly_closure : list (list nat); ly_ebs : nat; ly_bs : nat; ly_map_bs : nat }.

(** [bs * cell_dofs[pos.quot] + pos.rem] with [pos = div(p, bs)] *)
Definition unrolled (bs : nat) (row : list nat) (p : nat) : option nat :=
  d <- nth_error row (p / bs) ;; Some (bs * d + p mod bs).

(** The loops over the entities: DirichletBC.cpp:228-264 *)
Definition entity_dofs (L : layout) (rows : list (list nat)) (pairs : list (nat * nat)) : option (list nat) :=
  if ly_ebs L =? ly_bs L then
    r <- omap (fun '(c, i) => row <- nth_error rows c ;; cl <- nth_error (ly_closure L) i ;; omap (nth_error row) cl) pairs ;;
    Some (concat r)
  else if ly_bs L =? 1 then
    r <- omap (fun '(c, i) =>
           row <- nth_error rows c ;; cl <- nth_error (ly_closure L) i ;;
           r <- omap (fun index => omap (fun k => unrolled (ly_bs L) row (ly_ebs L * index + k)) (seq 0 (ly_ebs L))) cl ;;
           Some (concat r)) pairs ;;
    Some (concat r)
  else None.

(** * Dofs found by other ranks *)
Section Remote.
Variable P : nat.

(** MPI_Ineighbor_allgather: each rank sends one value to all its neighbours. *)
Definition neigh_allgather {A} (nbrs : nat -> list nat) (v : nat -> option A) (r : nat) : option (list A) :=
  neigh_alltoall P nbrs nbrs (fun s => x <- v s ;; Some (repeat x (length (nbrs s)))) r.

(** The neighbours of the symmetric communicator: DirichletBC.cpp:281-293.  The union of two
    sorted ranges without its duplicates. *)
Definition sym_neighbours (maps : nat -> imap) (q : nat) : list nat := sort_uniq (im_src (maps q) ++ im_dest (maps q)).

(** DirichletBC.cpp:117-139 *)
Definition dofs_global (m : imap) (bs : nat) (dofs : list nat) : option (list nat) :=
  if bs =? 1 then omap (local_to_global m) dofs
  else blocks <- omap (local_to_global m) (map (fun d => d / bs) dofs) ;;
       Some (map (fun '(g, d) => bs * g + d mod bs) (combine blocks dofs)).
(** DirichletBC.cpp:155-193, one received dof.  [std::map] of the ghosts keeps the first
    position of a global index. *)
Definition dof_here (m : imap) (bs : nat) (dof : nat) : list nat :=
  let block := dof / bs in
  if (im_lo m <=? block) && (block <? im_hi m) then [dof - bs * im_lo m]
  else match index_in block (im_ghosts m) with
       | Some i => [bs * (i + size_local m) + dof mod bs]
       | None => []
       end.
(** DirichletBC.cpp:95-196.  [dofs q]: what rank [q] passes. *)
Definition get_remote_dofs (nbrs : nat -> list nat) (maps : nat -> imap) (bs : nat) (dofs : nat -> option (list nat)) (r : nat) : option (list nat) :=
  match nbrs r with
  | [] => Some []
  | _ =>
    sizes <- neigh_allgather nbrs (fun q => d <- dofs q ;; Some (length d)) r ;;
    blocks <- neigh_allgather nbrs (fun q => d <- dofs q ;; dofs_global (maps q) bs d) r ;;
    if list_nat_eqb (map (@length nat) blocks) sizes then
      Some (concat (map (dof_here (maps r) bs) (concat blocks)))
    else None
  end.

(** * One space: DirichletBC.cpp:201-310 *)
Section Single.
Variables (L : layout) (maps : nat -> imap) (rows : nat -> list (list nat)).
Variables (ec ce : nat -> option (list (list nat))) (entities : nat -> list nat).

(** DirichletBC.cpp:217-271 *)
Definition located_here (q : nat) : option (list nat) :=
  pairs <- find_local_entity_index (ec q) (ce q) (entities q) ;;
  dofs <- entity_dofs L (rows q) pairs ;;
  Some (sort_uniq dofs).
(** DirichletBC.cpp:273-307 *)
Definition locate_dofs_topological (remote : bool) (r : nat) : option (list nat) :=
  dofs <- located_here r ;;
  if remote then
    dofs_remote <- get_remote_dofs (sym_neighbours maps) maps (if ly_map_bs L =? ly_bs L then 1 else ly_map_bs L) located_here r ;;
    Some (sort_uniq (dofs ++ dofs_remote))
  else Some dofs.
End Single.

(** * Two spaces: DirichletBC.cpp:312-453.  The two layouts have the same closure dofs and
    element block size. *)
Section Pair.
Variables (L : layout) (bs1 map_bs1 : nat).
Variables (maps0 maps1 : nat -> imap) (rows0 rows1 : nat -> list (list nat)).
Variables (ec ce : nat -> option (list (list nat))) (entities : nat -> list nat).

(** DirichletBC.cpp:353-377 *)
Definition entity_dof_pairs (q : nat) : option (list (nat * nat)) :=
  pairs <- find_local_entity_index (ec q) (ce q) (entities q) ;;
  r <- omap (fun '(c, i) =>
         row0 <- nth_error (rows0 q) c ;; row1 <- nth_error (rows1 q) c ;;
         if ly_bs L * length row0 =? bs1 * length row1 then
           cl <- nth_error (ly_closure L) i ;;
           r <- omap (fun index => omap (fun k =>
                  d0 <- unrolled (ly_bs L) row0 (ly_ebs L * index + k) ;;
                  d1 <- unrolled bs1 row1 (ly_ebs L * index + k) ;; Some (d0, d1)) (seq 0 (ly_ebs L))) cl ;;
           Some (concat r)
         else None) pairs ;;
  Some (concat r).
(** DirichletBC.cpp:379-395, 429-448: the permutation that sorts the dofs of the first space
    ([radix_sort] is stable: theorem C03), applied to both arrays; then [unique] on each
    array alone. *)
Definition sort_both (d0 d1 : list nat) : option (list nat * list nat) :=
  let perm := map snd (isort pair_leb (combine d0 (seq 0 (length d0)))) in
  s0 <- omap (nth_error d0) perm ;; s1 <- omap (nth_error d1) perm ;;
  Some (unique Nat.eqb s0, unique Nat.eqb s1).
Definition pairs_here (q : nat) : option (list nat * list nat) :=
  p <- entity_dof_pairs q ;; sort_both (map fst p) (map snd p).
(** DirichletBC.cpp:397-451: the neighbours of the first index map for both spaces; the
    assertions on the sizes are failures. *)
Definition locate_dofs_pair (remote : bool) (r : nat) : option (list nat * list nat) :=
  here <- pairs_here r ;;
  if remote then
    rem0 <- get_remote_dofs (sym_neighbours maps0) maps0 (ly_map_bs L) (fun q => h <- pairs_here q ;; Some (fst h)) r ;;
    rem1 <- get_remote_dofs (sym_neighbours maps0) maps1 map_bs1 (fun q => h <- pairs_here q ;; Some (snd h)) r ;;
    let d0 := fst here ++ rem0 in let d1 := snd here ++ rem1 in
    if length d0 =? length d1 then
      out <- sort_both d0 d1 ;;
      if length (fst out) =? length (snd out) then Some out else None
    else None
  else Some here.
End Pair.
End Remote.
