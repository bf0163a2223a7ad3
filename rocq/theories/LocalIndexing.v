(** Model of [get_local_indexing] (cpp/dolfinx/mesh/topologycomputation.cpp): which rank
    owns an entity, and the numbering of entities over all ranks.  Flat arrays of rows with
    [nv] vertices are lists of rows, and sizes of messages count rows.  A row and the entity
    number that the code keeps in a parallel array are a pair.  Entries -1 are [None]; a
    failing [assert] is [None]. *)
From Coq Require Import NArith.
From Verif Require Import Base Algo Nbx World IndexMap Sort Orient Entities.
Open Scope nat_scope.

(** What each rank passes: [entity_list], [ghost_status], [entity_index] *)
Record li_input := { li_list : list (list nat); li_ghost : list nat; li_index : list nat }.

(** topologycomputation.cpp:347-354 *)
Definition entity_count (ix : list nat) : nat :=
  match ix with [] => 0 | x :: t => S (fold_left Nat.max t x) end.
(** topologycomputation.cpp:396-402 *)
Definition first_instances (count : nat) (ix : list nat) : option (list (option nat)) :=
  ofold (fun fi pi => x <- nth_error fi (snd pi) ;;
                      match x with Some _ => Some fi | None => upd fi (snd pi) (Some (fst pi)) end)
        (combine (seq 0 (length ix)) ix) (repeat None count).

(** topologycomputation.cpp:430-436: values and lengths of the runs of equal ranks; the
    fuel is at least the length of the list. *)
Fixpoint value_runs (fuel : nat) (l : list nat) : option (list (nat * nat)) :=
  match l with
  | [] => Some []
  | x :: _ =>
    match fuel with
    | 0 => None
    | S fuel => let n := prefix_len (Nat.eqb x) l in rest <- value_runs fuel (skipn n l) ;; Some ((x, n) :: rest)
    end
  end.

Notation erow := (list nat * nat)%type.
(** topologycomputation.cpp:410-460: one entity.  The state is [entity_to_local_idx] and
    [send_entities] with [send_index]. *)
Definition gather_entity (m : imap) (data offsets ranks : list nat) (nv : nat) (inp : li_input) (fi : list (option nat))
    (st : list erow * list (list erow)) (id : nat) : option (list erow * list (list erow)) :=
  pos <- (o <- nth_error fi id ;; o) ;;
  entity <- nth_error (li_list inp) pos ;;
  vr <- omap (slice_at data offsets) entity ;;
  let entity_ranks := isort Nat.leb (concat vr) in
  rn <- value_runs (length entity_ranks) entity_ranks ;;
  ofold (fun st xn =>
           if snd xn =? nv then
             g <- omap (local_to_global m) entity ;;
             let vglobal := isort Nat.leb g in
             gs <- nth_error (li_ghost inp) id ;;
             let e2l := fst st ++ [(vglobal, id)] in
             if gs =? 1 then Some (e2l, snd st)
             else
               r <- find_sorted ranks (fst xn) ;;
               sends <- push_back (snd st) r (vglobal, id) ;;
               Some (e2l, sends)
           else Some st) rn st.

Definition key_of (e2l : list erow) (e : nat) : list nat := fst (nth e e2l ([], 0)).
(** topologycomputation.cpp:462-481: the sorted order of [entity_to_local_idx] without
    repetitions *)
Definition sorted_entities (nv : nat) (e2l : list erow) : option (list nat) :=
  perm <- sort_by_perm 64 16 (concat (map (fun ei => map Z.of_nat (fst ei ++ [snd ei])) e2l)) (nv + 1) nv ;;
  Some (unique (fun a b => row_eqb (key_of e2l a) (key_of e2l b)) perm).

(** [std::lexicographical_compare] *)
Fixpoint row_ltb (a b : list nat) : bool :=
  match a, b with
  | _, [] => false
  | [], _ :: _ => true
  | x :: a, y :: b => (x <? y) || (x =? y) && row_ltb a b
  end.
(** topologycomputation.cpp:538-555 *)
Definition find_entity (e2l : list erow) (perm : list nat) (entity : list nat) : option nat :=
  e <- nth_error perm (prefix_len (fun e => row_ltb (key_of e2l e) entity) perm) ;;
  if row_eqb (key_of e2l e) entity then Some (snd (nth e e2l ([], 0))) else None.

(** topologycomputation.cpp:258-280 *)
Definition create_adj_list (data : list (nat * nat)) (size : nat) : list nat * list nat :=
  let data := unique pair_eqb data in (map snd data, group_offsets size 0 data).

(** topologycomputation.cpp:289-311; [std::uint64_t] arithmetic *)
Definition fnv_hash (vertices : list Z) : N :=
  fold_left (fun h v => N.modulo (N.lxor h (Z.to_N (v mod 2 ^ 64)) * 1099511628211) (2 ^ 64))%N vertices 14695981039346656037%N.
Definition get_ownership (processes : list nat) (vertices : list Z) : option nat :=
  nth_error processes (N.to_nat (fnv_hash vertices mod N.of_nat (length processes))).

Section World.
Variables (P : nat) (nbx : (nat -> list nat) -> nat -> list nat) (maps : nat -> imap) (nv : nat) (inp : nat -> li_input).

Definition or_nil {A} (o : option (list A)) : list A := match o with Some l => l | None => [] end.
(** topologycomputation.cpp:359-374: the neighbours, in both directions *)
Definition nbrs (q : nat) : list nat := or_nil ('(data, _) <- index_to_dest_ranks P nbx maps q ;; Some (sort_uniq data)).

(** topologycomputation.cpp:376-481 *)
Definition gathered (q : nat) : option (list erow * list nat * list (list erow)) :=
  '(data, offsets) <- index_to_dest_ranks P nbx maps q ;;
  let count := entity_count (li_index (inp q)) in
  fi <- first_instances count (li_index (inp q)) ;;
  '(e2l, sends) <- ofold (gather_entity (maps q) data offsets (nbrs q) nv (inp q) fi) (seq 0 count) ([], repeat [] (length (nbrs q))) ;;
  perm <- sorted_entities nv e2l ;;
  Some (e2l, perm, sends).

(** topologycomputation.cpp:487-518 *)
Definition send_entities (q : nat) : option (sbuf (list nat)) :=
  '(_, _, sends) <- gathered q ;;
  let b := map (map fst) sends in
  Some (concat b, (map (@length _) b, psums (map (@length _) b))).
Definition received (q : nat) : option (list (list nat) * list nat) := exchange P nbrs nbrs send_entities q.

(** The positions of the received data, with the rank they come from:
    [for (r ...) for (i = recv_disp[r]; i < recv_disp[r + 1]; ++i)] *)
Definition positions (ranks sizes : list nat) : list (nat * nat) :=
  concat (map (fun rdn => map (fun i => (fst rdn, i)) (seq (fst (snd rdn)) (snd (snd rdn)))) (combine ranks (combine (psums sizes) sizes))).
(** topologycomputation.cpp:520-570: [recv_index], [shared_entities_data],
    [shared_entity_to_global_vertices_data] *)
Definition matched (q : nat) : option (list (option nat) * list (nat * nat) * list (nat * nat)) :=
  '(e2l, perm, _) <- gathered q ;;
  '(recv_data, recv_sizes) <- received q ;;
  ofold (fun st ri =>
           let '(recv_index, se, sv) := st in
           entity <- nth_error recv_data (snd ri) ;;
           match find_entity e2l perm entity with
           | Some idx => Some (recv_index ++ [Some idx], se ++ [(idx, fst ri); (idx, q)], sv ++ map (fun v => (idx, v)) entity)
           | None => Some (recv_index ++ [None], se, sv)
           end) (positions (nbrs q) recv_sizes) ([], [], []).

(** topologycomputation.cpp:572-632: [local_index], [num_local], [interprocess_entities] *)
Definition owned_step (q : nat) (ghost : list nat) (shared shared_v : list nat * list nat) (st : list (option nat) * nat * list nat) (i : nat)
  : option (list (option nat) * nat * list nat) :=
  let '(li, c, ipe) := st in
  g <- nth_error ghost i ;;
  if g =? 1 then Some st
  else
    ranks <- slice_at (fst shared) (snd shared) i ;;
    match ranks with
    | [] => li <- upd li i (Some c) ;; Some (li, S c, ipe)
    | _ =>
      vertices <- slice_at (fst shared_v) (snd shared_v) i ;;
      owner <- get_ownership ranks (map (fun v => to_int (Z.of_nat v)) vertices) ;;
      if owner =? q then li <- upd li i (Some c) ;; Some (li, S c, ipe ++ [i]) else Some (li, c, ipe ++ [i])
    end.
Definition fill_rest (li : list (option nat)) (c : nat) : list nat * nat :=
  fold_left (fun ac x => match x with Some v => (fst ac ++ [v], snd ac) | None => (fst ac ++ [snd ac], S (snd ac)) end) li ([], c).
Definition numbering (q : nat) : option (list nat * nat * list nat) :=
  '(_, se, sv) <- matched q ;;
  let count := entity_count (li_index (inp q)) in
  let shared := create_adj_list (isort pair_leb se) count in
  let shared_v := create_adj_list (isort pair_leb sv) count in
  '(li, c, ipe) <- ofold (owned_step q (li_ghost (inp q)) shared shared_v) (seq 0 count) (repeat None count, 0, []) ;;
  let local_index := fst (fill_rest li c) in
  ipe <- omap (nth_error local_index) ipe ;;
  Some (local_index, c, ipe).
Definition num_local (q : nat) : option nat := '(_, c, _) <- numbering q ;; Some c.

(** topologycomputation.cpp:640-675 *)
Definition send_globals (q : nat) : option (sbuf (option nat)) :=
  '(_, _, sends) <- gathered q ;;
  '(local_index, nl, _) <- numbering q ;;
  before <- omap num_local (seq 0 q) ;;
  b <- omap (omap (fun ei => l <- nth_error local_index (snd ei) ;; Some (if l <? nl then Some (lsum before + l) else None))) sends ;;
  Some (concat b, (map (@length _) b, psums (map (@length _) b))).
Definition recv_sizes (q : nat) : option (list nat) := '(_, sizes) <- received q ;; Some sizes.
(** topologycomputation.cpp:634-638, 676-695: [ghost_indices] and [ghost_owners] *)
Definition ghosts_of (q : nat) : option (list nat * list nat) :=
  '(recv_index, _, _) <- matched q ;;
  '(local_index, nl, _) <- numbering q ;;
  recv_data <- neigh_alltoallv P nbrs nbrs send_globals recv_sizes q ;;
  sizes <- recv_sizes q ;;
  let n := entity_count (li_index (inp q)) - nl in
  '(gi, go) <- ofold (fun st ri =>
                 let '(gi, go) := st in
                 g <- nth_error recv_data (snd ri) ;; idx <- nth_error recv_index (snd ri) ;;
                 match g, idx with
                 | Some g, Some idx =>
                   l <- nth_error local_index idx ;;
                   if l <? nl then None
                   else gi <- upd gi (l - nl) (Some g) ;; go <- upd go (l - nl) (Some (fst ri)) ;; Some (gi, go)
                 | _, _ => Some st
                 end) (positions (nbrs q) sizes) (repeat None n, repeat None n) ;;
  gi <- omap (fun x => x) gi ;; go <- omap (fun x => x) go ;; Some (gi, go).

(** topologycomputation.cpp:697-707: the new numbers, the index map and the interprocess
    entities *)
Definition get_local_indexing (q : nat) : option (list nat * imap * list nat) :=
  '(local_index, _, ipe) <- numbering q ;;
  _ <- ghosts_of q ;;
  new_index <- omap (nth_error local_index) (li_index (inp q)) ;;
  map <- imap_make P nbx (fun s => match num_local s with Some n => n | None => 0 end)
           (fun s => match ghosts_of s with Some (g, _) => g | None => [] end)
           (fun s => match ghosts_of s with Some (_, o) => o | None => [] end) q ;;
  Some (new_index, map, ipe).
End World.
