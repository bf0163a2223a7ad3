(** Model of [create_new_vertices] and [impl::create_new_geometry]
    (cpp/dolfinx/refinement/utils.h), of [compute_midpoints] (cpp/dolfinx/mesh/utils.h) and of
    the refinement of intervals (cpp/dolfinx/refinement/interval.h).

    Simplifications: numbers are unbounded; coordinates are real numbers; a message is a list
    of pairs (edge, new vertex) instead of a list of twice as many integers; arrays that the
    code fills in order are built in that order. *)
From Coq Require Import Reals.
From Verif Require Import Base Algo World IndexMap MatrixPar MatrixCSR Marking RefUtils SubMesh.
Open Scope nat_scope.

Section NewVertices.
Variables (P : nat) (nbx : (nat -> list nat) -> nat -> list nat).
(** Index maps of edges and vertices, marked edges of every rank *)
Variables (emaps vmaps : nat -> imap) (marks : nat -> list bool).

(** utils.h:157-164 *)
Definition marked_list (r : nat) : option (list nat) :=
  ofold (fun l i => m <- nth_error (marks r) i ;; Some (if m then l ++ [i] else l)) (seq 0 (size_local (emaps r))) [].
(** utils.h:171-177: the number of the first new vertex of the rank; the numbers are
    consecutive. *)
Definition num_marked (r : nat) : nat := match marked_list r with Some l => length l | None => 0 end.
Definition first_new (r : nat) : nat := exscan num_marked r + im_hi (vmaps r).
(** utils.h:190-201; [shared_edges] is made by the caller, plaza.h:482-502 and
    interval.h:56-76. *)
Definition values_to_send (r : nat) : option (list (list (nat * nat))) :=
  l <- marked_list r ;; '(ranks, (pos, offsets)) <- edge_ranks P nbx emaps r ;;
  ofold (fun vs '(i, e) =>
      links <- slice_at pos offsets e ;;
      g <- local_to_global (emaps r) e ;;
      ofold (fun vs k => push_back vs k (g, first_new r + i)) links vs)
    (enum l) (repeat [] (length ranks)).
(** utils.h:203-239 *)
Definition received_values (r : nat) : option (list (nat * nat)) :=
  '(data, _) <- exchange P (edge_nbrs P nbx emaps) (edge_nbrs P nbx emaps)
     (fun q => vs <- values_to_send q ;; let sizes := map (@length (nat * nat)) vs in Some (concat vs, (sizes, psums sizes))) r ;;
  Some data.
(** utils.h:241-256: marked edges and their new vertices, owned ones and then those received *)
Definition edge_to_vertex (r : nat) : option (list (nat * nat)) :=
  l <- marked_list r ;;
  data <- received_values r ;;
  recv <- omap (fun '(g, v) => let e := global_to_local (emaps r) g in if (e =? -1)%Z then None else Some (Z.to_nat e, v)) data ;;
  Some (combine l (seq (first_new r) (length l)) ++ recv).
(** utils.h:258-278: data and offsets of the adjacency list from edges to new vertices *)
Definition new_vertex_map (r : nat) : option (list nat * list nat) :=
  evs <- edge_to_vertex r ;;
  let data := map snd (isort (fun a b => fst a <=? fst b) evs) in
  offset <- ofold (fun o ev => upd o (fst ev + 1) 1) evs (repeat 0 (size_local (emaps r) + num_ghosts (emaps r) + 1)) ;;
  Some (data, tl (psums offset)).
End NewVertices.

Section Geometry.
(** Geometry and topology of one rank: nodes and vertices of the cells, the node of each
    vertex of a cell, coordinates (three for each node), geometric dimension, nodes of an edge
    as found by [entities_to_geometry] (SubMesh.v, an [omap] over the edges) without permuting
    them *)
Variables (xdofs c_to_v : list (list nat)) (vertex_pos : list nat) (x : list R) (gdim : nat) (edge_nodes : nat -> option (list nat)).

(** utils.h:57-80 *)
Definition vertex_to_x (num_all : nat) : option (list nat) :=
  ofold (fun vx '(vertices, dofs) =>
      ofold (fun vx '(i, v) => p <- nth_error vertex_pos i ;; d <- nth_error dofs p ;; upd vx v d) (enum vertices) vx)
    (combine c_to_v xdofs) (repeat 0 num_all).
(** mesh/utils.h:614-635; [e_to_g] are the nodes of the entities. *)
Definition compute_midpoints (e_to_g : list (list nat)) : option (list (list R)) :=
  omap (fun rows =>
      ofold (fun p row => xg <- omap (fun j => nth_error x (3 * row + j)) (seq 0 3) ;;
                          Some (map (fun ab => fst ab + snd ab / INR (length rows))%R (combine p xg)))
        rows [0%R; 0%R; 0%R]) e_to_g.
(** utils.h:82-112: the rows of the array *)
Definition create_new_geometry (num_all num_vertices : nat) (marked_edge_list : list nat) : option (list (list R)) :=
  vx <- vertex_to_x num_all ;;
  old <- omap (fun v => d <- nth_error vx v ;; omap (fun j => nth_error x (3 * d + j)) (seq 0 gdim)) (seq 0 num_vertices) ;;
  e_to_g <- omap edge_nodes marked_edge_list ;;
  mid <- compute_midpoints e_to_g ;;
  new <- omap (fun p => omap (nth_error p) (seq 0 gdim)) mid ;;
  Some (old ++ new).
(** utils.h:157-168 *)
Definition new_vertex_coords (emaps vmaps : nat -> imap) (marks : nat -> list bool) (r : nat) : option (list (list R)) :=
  l <- marked_list emaps marks r ;; create_new_geometry (size_local (vmaps r) + num_ghosts (vmaps r)) (size_local (vmaps r)) l.
End Geometry.

Section Interval.
Variables (P : nat) (nbx : (nat -> list nat) -> nat -> list nat).
(** Index maps of cells (that are the edges) and vertices, vertices of the cells, marked cells
    ([None]: all) *)
Variables (cmaps vmaps : nat -> imap) (c_to_v : nat -> list (list nat)) (cells : option (nat -> list nat)).

(** interval.h:56-116.  The lines are those of plaza.h:482-531 with cells in the place of
    edges, so the functions of Marking.v are used. *)
Definition interval_marks (r : nat) : option (list bool) :=
  match cells with
  | None => '(marks, _) <- initial_marks P nbx cmaps cells r ;; Some marks
  | Some _ => update_edges P nbx cmaps (initial_marks P nbx cmaps cells) r
  end.
Definition interval_marker (r : nat) : list bool := match interval_marks r with Some m => m | None => [] end.
(** interval.h:128-132 *)
Definition refined_cells (r : nat) : nat := countb (fun b => b) (firstn (size_local (cmaps r)) (interval_marker r)).
(** interval.h:151-183: the vertices of the new cells and their parents *)
Definition interval_cell (marks : list bool) (new_map : list nat * list nat) (global_indices : list nat) (r cell : nat) : option (list (nat * nat) * list nat) :=
  vertices <- nth_error (c_to_v r) cell ;;
  match vertices with
  | [v0; v1] =>
      a <- nth_error global_indices v0 ;; b <- nth_error global_indices v1 ;;
      m <- nth_error marks cell ;;
      if m then
        nv <- slice_at (fst new_map) (snd new_map) cell ;;
        match nv with [c] => Some ([(a, c); (c, b)], [cell; cell]) | _ => None end
      else Some ([(a, b)], [cell])
  | _ => None
  end.
(** interval.h:40-191 without the coordinates; [parent_facet] is the option to compute parent
    facets, which is refused. *)
Definition interval_refinement (parent_facet : bool) (r : nat) : option (list (nat * nat) * list nat) :=
  if parent_facet then None else
  marks <- interval_marks r ;;
  new_map <- new_vertex_map P nbx cmaps vmaps interval_marker r ;;
  global_indices <- adjust_indices P vmaps refined_cells r ;;
  children <- omap (fun c => interval_cell marks new_map global_indices r c) (seq 0 (size_local (cmaps r))) ;;
  let topology := concat (map fst children) in
  if negb (length topology =? size_local (cmaps r) + refined_cells r) then None else
  Some (topology, concat (map snd children)).
End Interval.
