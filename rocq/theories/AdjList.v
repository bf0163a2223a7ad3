(** Model of cpp/dolfinx/graph/AdjacencyList.h, of [compute_from_transpose]
    (cpp/dolfinx/mesh/topologycomputation.cpp) and of [transpose_dofmap]
    (cpp/dolfinx/fem/DofMap.cpp).

    Simplification: offsets are mathematical naturals, i.e. arrays have fewer than
    2^31 entries (the C++ stores offsets in [std::int32_t]). *)
From Verif Require Import Base.

(** AdjacencyList.h:40, 226-235.  Node data is a separate optional array that takes
    part in no other operation. *)
Record adjlist (A : Type) := mkAdj { al_array : list A; al_offsets : list nat }.
Arguments mkAdj {A}. Arguments al_array {A}. Arguments al_offsets {A}.

(** AdjacencyList.h:51-55: [AdjacencyList(n)], node i linked to itself. *)
Definition adj_iota (n : nat) : adjlist nat := mkAdj (seq 0 n) (seq 0 (S n)).

(** AdjacencyList.h:69-77: throws when the last offset is not the data size;
    [offsets.back()] on an empty vector is undefined behaviour, also [None]. *)
Definition adj_make {A} (data : list A) (offsets : list nat) : option (adjlist A) :=
  match rev offsets with
  | [] => None
  | b :: _ => if b =? length data then Some (mkAdj data offsets) else None
  end.

(** AdjacencyList.h:94-109: constructor with node data; [offsets.size() - 1] is a
    [std::size_t] subtraction, which for empty offsets wraps to a huge number and
    therefore differs from any node-data size. *)
Definition adj_make_nd {A W} (data : list A) (offsets : list nat) (nd : list W)
  : option (adjlist A * list W) :=
  match offsets with
  | [] => None
  | _ :: o => if length nd =? length o
              then l <- adj_make data offsets ;; Some (l, nd) else None
  end.

(** AdjacencyList.h:117-128: from a vector of rows. *)
Definition adj_of_rows {A} (rows : list (list A)) : adjlist A :=
  let offsets := fold_left (fun o row => o ++ [last o 0 + length row]) rows [0] in
  let array := fold_left (fun a e => a ++ e) rows [] in
  mkAdj array offsets.

(** AdjacencyList.h:154 *)
Definition num_nodes {A} (l : adjlist A) : nat := length (al_offsets l) - 1.

(** AdjacencyList.h:159-163 *)
Definition num_links {A} (l : adjlist A) (node : nat) : option nat :=
  a <- nth_error (al_offsets l) node ;; b <- nth_error (al_offsets l) (S node) ;; Some (b - a).

(** AdjacencyList.h:169-185 *)
Definition links {A} (l : adjlist A) (node : nat) : option (list A) :=
  slice_at (al_array l) (al_offsets l) node.

(** AdjacencyList.h:147-150 *)
Definition adj_eqb {A} (eqb : A -> A -> bool) (l1 l2 : adjlist A) : bool :=
  let fix leqb {X} (e : X -> X -> bool) (a b : list X) :=
    match a, b with
    | [], [] => true
    | x :: a', y :: b' => e x y && leqb e a' b'
    | _, _ => false
    end in
  leqb eqb (al_array l1) (al_array l2) && leqb Nat.eqb (al_offsets l1) (al_offsets l2).

(** AdjacencyList.h:261-282.  [degree] is an [int]; in [data.size() / degree] it is
    converted to [std::size_t], i.e. taken modulo 2^64. *)
Definition regular_adjacency_list {A} (data : list A) (degree : Z) : option (adjlist A) :=
  let sz := Z.of_nat (length data) in
  if (degree =? 0)%Z && negb (sz =? 0)%Z then None
  else if (0 <? degree)%Z && negb (sz mod degree =? 0)%Z then None
  else
    let num_nodes := (if (degree =? 0)%Z then sz else sz / (degree mod 2 ^ 64))%Z in
    let offsets := fold_left (fun o _ => o ++ [last o 0 + Z.to_nat degree])
                             (seq 1 (Z.to_nat num_nodes)) [0] in
    adj_make data offsets.

(** topologycomputation.cpp:963-988 *)
Definition compute_from_transpose (c : adjlist nat) (num_entities_d0 : nat)
  : option (adjlist nat) :=
  num_connections <-
    ofold (fun num e1 => ls <- links c e1 ;; ofold incr ls num)
          (seq 0 (num_nodes c)) (repeat 0 num_entities_d0) ;;
  let offsets := psums num_connections in
  let body := fun (st : list nat * list nat) '(e1, e0) =>
    let '(counter, connections) := st in
    o <- nth_error offsets e0 ;;
    k <- nth_error counter e0 ;;
    connections' <- upd connections (o + k) e1 ;;
    counter' <- upd counter e0 (S k) ;;
    Some (counter', connections') in
  '(_, connections) <-
    ofold (fun st e1 => ls <- links c e1 ;;
                        ofold (fun st e0 => body st (e1, e0)) ls st)
          (seq 0 (num_nodes c))
          (repeat 0 (length num_connections), repeat 0 (last offsets 0)) ;;
  adj_make connections offsets.

(** DofMap.cpp:120-156.  [dofmap] is the row-major data of an array with [dim]
    columns; [std::max_element] of an empty range must not be dereferenced ([None]). *)
Definition max_element (l : list nat) : option nat :=
  match l with [] => None | x :: t => Some (fold_left Nat.max t x) end.

Definition transpose_dofmap (dofmap : list nat) (dim num_cells : nat) : option (adjlist nat) :=
  d <- slice dofmap 0 (num_cells * dim) ;;
  max_index <- max_element d ;;
  let get := fun c k => nth_error dofmap (c * dim + k) in
  num_local_contributions <-
    ofold (fun num c => ofold (fun num k => v <- get c k ;; incr num v) (seq 0 dim) num)
          (seq 0 num_cells) (repeat 0 (max_index + 1)) ;;
  let index_offsets := psums num_local_contributions in
  '(_, data, _) <-
    ofold (fun st c =>
             ofold (fun '(pos, data, cell_offset) k =>
                      v <- get c k ;;
                      '(pos', data') <- place (pos, data) (v, cell_offset) ;;
                      Some (pos', data', S cell_offset)) (seq 0 dim) st)
          (seq 0 num_cells)
          (index_offsets, repeat 0 (last index_offsets 0), 0) ;;
  adj_make data index_offsets.
