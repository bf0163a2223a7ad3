(** Model of the subdivision of one simplex: cpp/dolfinx/refinement/plaza.cpp
    (get_triangles, get_tetrahedra, get_simplices), plaza.h (compute_parent_facets,
    face_long_edge and the body of the loop over cells in compute_refinement).

    [indices] has the new global indices of the vertices and of the midpoints of the edges of
    a cell, -1 for an edge that is not marked.  Arrays of fixed size together with a used size
    are lists; a failing assertion is [None]. *)
From Verif Require Import Base Algo.
Open Scope nat_scope.

Definition split_edge (indices : list Z) (i : nat) : option bool :=
  x <- nth_error indices i ;; Some (0 <=? x)%Z.

(** plaza.cpp:36-67 *)
Definition get_triangles (indices : list Z) (longest_edge : nat) (uniform : bool) : option (list nat) :=
  let v0 := (longest_edge + 1) mod 3 in
  let v1 := (longest_edge + 2) mod 3 in
  let v2 := longest_edge in
  let e0 := v0 + 3 in
  let e1 := v1 + 3 in
  let e2 := v2 + 3 in
  m2 <- split_edge indices e2 ;;
  m0 <- split_edge indices e0 ;;
  m1 <- split_edge indices e1 ;;
  if negb m2 then None
  else if uniform && m0 && m1 then Some [e0; e1; v2; e1; e2; v0; e2; e0; v1; e2; e1; e0]
  else if m0 && m1 then Some [e2; v2; e0; e2; e0; v1; e2; v2; e1; e2; e1; v0]
  else if m0 && negb m1 then Some [e2; v2; e0; e2; e0; v1; e2; v2; v0]
  else if negb m0 && m1 then Some [e2; v2; v1; e2; v2; e1; e2; e1; v0]
  else Some [e2; v2; v1; e2; v2; v0].

(** plaza.cpp:82-83 *)
Definition tet_edges : list (nat * nat) := [(2, 3); (1, 3); (1, 2); (0, 3); (0, 2); (0, 1)].
Definition tet_edge (e j : nat) : option nat :=
  p <- nth_error tet_edges e ;; Some (if j =? 0 then fst p else snd p).

(** The matrix [conn] *)
Definition conn_set (conn : nat -> nat -> bool) (i j : nat) : nat -> nat -> bool :=
  fun a b => ((a =? i) && (b =? j)) || conn a b.

(** plaza.cpp:104-134, one facet attached to a marked edge *)
Definition connect_facet (indices : list Z) (longest_edge : list nat) (ei : nat)
    (conn : nat -> nat -> bool) (j : nat) : option (nat -> nat -> bool) :=
  let e_opp := 5 - ei in
  fj <- tet_edge e_opp j ;;
  le_j <- nth_error longest_edge fj ;;
  if le_j =? ei then
    fk <- tet_edge e_opp (1 - j) ;;
    le_k <- nth_error longest_edge fk ;;
    let conn := conn_set conn fk (ei + 4) in
    mo <- split_edge indices (e_opp + 4) ;;
    if (le_k =? ei) && mo then
      Some (conn_set (conn_set conn (ei + 4) (e_opp + 4)) (e_opp + 4) (ei + 4))
    else Some conn
  else Some (conn_set (conn_set conn (le_j + 4) (ei + 4)) (ei + 4) (le_j + 4)).
(** plaza.cpp:86-142, one edge *)
Definition connect_edge (indices : list Z) (longest_edge : list nat)
    (conn : nat -> nat -> bool) (ei : nat) : option (nat -> nat -> bool) :=
  v0 <- tet_edge ei 0 ;;
  v1 <- tet_edge ei 1 ;;
  m <- split_edge indices (ei + 4) ;;
  if m then
    ofold (connect_facet indices longest_edge ei)
          [0; 1] (conn_set (conn_set conn v1 (ei + 4)) v0 (ei + 4))
  else Some (conn_set (conn_set conn v1 v0) v0 v1).

(** plaza.cpp:153-174, the innermost loops for [i] and [j] *)
Definition tets_of_pair (conn : nat -> nat -> bool) (i j : nat) : list (list nat) :=
  snd (fold_left (fun acc k =>
    let '(facet_set, out) := acc in
    if conn i k && conn j k then
      (facet_set ++ [k], out ++ map (fun m => [i; j; m; k]) (filter (fun m => conn m k) facet_set))
    else acc) (seq (S j) (9 - j)) ([], [])).
(** plaza.cpp:72-180; more than eight tetrahedra do not fit in the array. *)
Definition get_tetrahedra (indices : list Z) (longest_edge : list nat) : option (list nat) :=
  conn <- ofold (connect_edge indices longest_edge) (seq 0 6) (fun _ _ => false) ;;
  let tets := concat (map (fun i => concat (map (fun j =>
      if conn i j then tets_of_pair conn i j else []) (seq (S i) (9 - i)))) (seq 0 10)) in
  if length tets <=? 8 then Some (concat tets) else None.

(** plaza.cpp:251-274 *)
Definition get_simplices (indices : list Z) (longest_edge : list nat) (tdim : nat) (uniform : bool) : option (list nat) :=
  match tdim with
  | 2 => match longest_edge with [e] => get_triangles indices e uniform | _ => None end
  | 3 => if length longest_edge =? 4 then get_tetrahedra indices longest_edge else None
  | _ => None
  end.

(** * Parent facets *)
(** [std::ranges::set_intersection] *)
Fixpoint set_intersection (l1 : list nat) : list nat -> list nat :=
  fix inner (l2 : list nat) : list nat :=
    match l1, l2 with
    | x :: t1, y :: t2 =>
      if x <? y then set_intersection t1 l2
      else if y <? x then inner t2
      else x :: set_intersection t1 t2
    | _, _ => []
    end.
(** plaza.h:52-59 *)
Definition facet_table (tdim : nat) : list (list nat) :=
  if tdim =? 2 then [[1; 2; 3]; [0; 2; 4]; [0; 1; 5]]
  else [[1; 2; 3; 4; 5; 6]; [0; 2; 3; 4; 7; 8]; [0; 1; 3; 5; 7; 9]; [0; 1; 2; 6; 8; 9]].
(** plaza.h:66-102, one parent facet, one child and one facet of the child *)
Definition parent_step (tdim : nat) (simplex_set : list nat) (fpi cc : nat) (pf : list Z) (fci : nat) : option (list Z) :=
  row <- nth_error (facet_table tdim) fci ;;
  cf <- omap (fun j => p <- nth_error row j ;; nth_error simplex_set (cc * (tdim + 1) + p)) (seq 0 tdim) ;;
  frow <- nth_error (facet_table tdim) fpi ;;
  if length (set_intersection frow (isort Nat.leb cf)) =? tdim then
    old <- nth_error pf (cc * (tdim + 1) + fci) ;;
    if (old =? -1)%Z then upd pf (cc * (tdim + 1) + fci) (Z.of_nat fpi) else None
  else Some pf.
(** plaza.h:37-106: the used part of the array *)
Definition compute_parent_facets (tdim : nat) (simplex_set : list nat) : option (list Z) :=
  let ncells := length simplex_set / (tdim + 1) in
  ofold (fun pf fpi => ofold (fun pf cc =>
      ofold (parent_step tdim simplex_set fpi cc) (seq 0 (tdim + 1)) pf) (seq 0 ncells) pf)
    (seq 0 (tdim + 1)) (repeat (-1)%Z (length simplex_set)).

(** * One cell *)
(** plaza.h:374-389: the position in [edges] *)
Definition to_local_edge (edges : list nat) (e : nat) : nat :=
  match index_in e edges with Some i => i | None => e end.
(** plaza.h:323-420, the body of the loop over cells: the new cells with global vertex
    indices, the parent of each and the parent facets.  [vertices] and [edges] are the local
    indices in the cell, [faces] its faces; [new_vertex] has the new vertex of an edge. *)
Definition refine_cell (tdim c : nat) (vertices edges faces : list nat)
    (global_indices : list Z) (marked : list bool) (new_vertex : nat -> option Z)
    (long_edge : list nat) (ratio_ok : bool)
  : option (list (list Z) * list nat * list Z) :=
  vs <- omap (nth_error global_indices) vertices ;;
  ms <- omap (nth_error marked) edges ;;
  es <- omap (fun e => m <- nth_error marked e ;; if m then new_vertex e else Some (-1)%Z) edges ;;
  if negb (existsb (fun b => b) ms) then
    Some ([vs], [c], map Z.of_nat (seq 0 (tdim + 1)))
  else
    les <- omap (nth_error long_edge) faces ;;
    let indices := vs ++ es in
    simplex_set <- get_simplices indices (map (to_local_edge edges) les) tdim ratio_ok ;;
    pf <- compute_parent_facets tdim simplex_set ;;
    let ncells := length simplex_set / (tdim + 1) in
    cells <- omap (fun i => omap (fun j => v <- nth_error simplex_set (i * (tdim + 1) + j) ;; nth_error indices v)
                                 (seq 0 (tdim + 1))) (seq 0 ncells) ;;
    Some (cells, repeat c ncells, pf).

(** * Longest edges *)
Section Longest.
(** Lengths are only compared: any total order. *)
Variables (L : Type) (ltb : L -> L -> bool) (zero : L).
(** plaza.h:232-255, one face: [vertices] are the global indices of its vertices, [lengths]
    the lengths of its edges; [tie] is [tdim == 3].  The result is the position of the longest
    edge. *)
Definition long_step (tie : bool) (vertices : list nat) (lengths : list L) (acc : nat * L) (i : nat) : option (nat * L) :=
  let '(imax, max_len) := acc in
  e_len <- nth_error lengths i ;;
  if ltb max_len e_len then Some (i, e_len)
  else if tie && negb (ltb e_len max_len) then
    vi <- nth_error vertices i ;;
    vmax <- nth_error vertices imax ;;
    Some (if vmax <? vi then i else imax, max_len)
  else Some (imax, max_len).
Definition face_long_edge (tie : bool) (vertices : list nat) (lengths : list L) : option nat :=
  '(imax, _) <- ofold (long_step tie vertices lengths) (seq 0 3) (0, zero) ;; Some imax.
End Longest.
