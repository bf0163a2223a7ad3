(** What a subdivision of a simplex has to satisfy. *)
From Coq Require Import Reals.
From Verif Require Import Base.
Open Scope nat_scope.

(** * Simplices in a space of any dimension *)
(** A point has a coordinate for every number (zero beyond the dimension of the space). *)
Notation point := (nat -> R).
Definition rsum (l : list R) : R := fold_right Rplus 0%R l.
(** The combination of points [ps] with weights [w] *)
Definition comb (w : list R) (ps : list point) (c : nat) : R :=
  rsum (map (fun ap => (fst ap * snd ap c)%R) (combine w ps)).
Definition in_simplex (ps : list point) (x : point) : Prop :=
  exists w, length w = length ps /\ (forall a, In a w -> (0 <= a)%R) /\ rsum w = 1%R /\ forall c, x c = comb w ps c.
Definition in_interior (ps : list point) (x : point) : Prop :=
  exists w, length w = length ps /\ (forall a, In a w -> (0 < a)%R) /\ rsum w = 1%R /\ forall c, x c = comb w ps c.
(** The simplex is not degenerate. *)
Definition independent (ps : list point) : Prop :=
  forall w, length w = length ps -> rsum w = 0%R -> (forall c, comb w ps c = 0%R) -> forall a, In a w -> a = 0%R.

(** The children cover the parent and nothing else; if the parent is not degenerate, neither
    are the children, and they do not overlap. *)
Record tiles (children : list (list point)) (parent : list point) : Prop := {
  ti_cover : forall x, in_simplex parent x <-> exists c, In c children /\ in_simplex c x;
  ti_nondeg : independent parent -> forall c, In c children -> independent c;
  ti_disjoint : independent parent ->
    ForallOrdPairs (fun c c' => forall x, ~ (in_interior c x /\ in_interior c' x)) children
}.

(** Twice the area of a triangle in the plane, six times the volume of a tetrahedron in
    space *)
Definition area2 (ps : list point) : R :=
  match ps with
  | [a; b; c] => Rabs ((b 0 - a 0) * (c 1 - a 1) - (b 1 - a 1) * (c 0 - a 0))
  | _ => 0
  end.
Definition volume6 (ps : list point) : R :=
  match ps with
  | [a; b; c; d] =>
    Rabs ((b 0 - a 0) * ((c 1 - a 1) * (d 2 - a 2) - (c 2 - a 2) * (d 1 - a 1))
        - (b 1 - a 1) * ((c 0 - a 0) * (d 2 - a 2) - (c 2 - a 2) * (d 0 - a 0))
        + (b 2 - a 2) * ((c 0 - a 0) * (d 1 - a 1) - (c 1 - a 1) * (d 0 - a 0)))
  | _ => 0
  end.

(** * Triangles and tetrahedra with points on edges *)
(** The vertices of the edges of the reference triangle and tetrahedron *)
Definition ref_edges (tdim : nat) : list (nat * nat) :=
  if tdim =? 2 then [(1, 2); (0, 2); (0, 1)]
  else [(2, 3); (1, 3); (1, 2); (0, 3); (0, 2); (0, 1)].
(** The points of a subdivided cell are its vertices and then the midpoints of its edges. *)
Definition place (tdim : nat) (X : nat -> point) (i : nat) : point :=
  if i <=? tdim then X i
  else match nth_error (ref_edges tdim) (i - S tdim) with
       | Some (a, b) => fun c => ((X a c + X b c) / 2)%R
       | None => fun _ => 0%R
       end.
(** Edge [e] is an edge of facet [f] of a tetrahedron, the facet without vertex [f]. *)
Definition edge_of_facet (f e : nat) : Prop :=
  exists a b, nth_error (ref_edges 3) e = Some (a, b) /\ a <> f /\ b <> f.

(** [le] has for every facet the edge that comes first in an order of the edges. *)
Definition longest_in (order : list nat) (le : list nat) : Prop :=
  length le = 4 /\ forall f e, nth_error le f = Some e ->
    exists p q, order = p ++ e :: q /\ edge_of_facet f e /\ forall e', In e' p -> ~ edge_of_facet f e'.
(** If an edge of a facet is marked, so is its longest edge; some edge is marked. *)
Definition marks_closed (le : list nat) (mark : nat -> bool) : Prop :=
  (exists e, e < 6 /\ mark e = true) /\
  forall f e l, nth_error le f = Some l -> edge_of_facet f e -> mark e = true -> mark l = true.

(** Point [i] lies on facet [f] of the cell: a vertex other than [f], or the midpoint of an
    edge without [f]. *)
Definition on_facet (tdim f i : nat) : Prop :=
  if i <=? tdim then i <> f
  else exists a b, nth_error (ref_edges tdim) (i - S tdim) = Some (a, b) /\ a <> f /\ b <> f.
(** [t] has the points of a child that lie on facet [f], if these are a facet of the child:
    all points of the child but one. *)
Definition facet_of_child (tdim f : nat) (child t : list nat) : Prop :=
  exists p x q, child = p ++ x :: q /\ t = p ++ q /\ forall i, In i t -> on_facet tdim f i.

(** * Names of points that do not depend on a cell *)
(** The midpoint of two vertices; a vertex is the midpoint of itself and itself. *)
Definition mid (a b : nat) : nat * nat := (min a b, max a b).
(** The name of point [i] in a cell with vertices [V] *)
Definition name (tdim : nat) (V : nat -> nat) (i : nat) : nat * nat :=
  if i <=? tdim then mid (V i) (V i)
  else match nth_error (ref_edges tdim) (i - S tdim) with
       | Some (a, b) => mid (V a) (V b)
       | None => (0, 0)
       end.
Definition same_elements {A} (l l' : list A) : Prop := forall x, In x l <-> In x l'.
(** The points with names [T] are a facet of a child on facet [f] of the cell. *)
Definition piece (tdim : nat) (V : nat -> nat) (children : list (list nat)) (f : nat) (T : list (nat * nat)) : Prop :=
  exists child t, In child children /\ facet_of_child tdim f child t /\ same_elements (map (name tdim V) t) T.

(** Lists of [n] consecutive entries *)
Fixpoint chunks (k n : nat) (l : list nat) : list (list nat) :=
  match k with 0 => [] | S k' => firstn n l :: chunks k' n (skipn n l) end.
(** The children of a cell, each with [tdim + 1] points *)
Definition children_of (tdim : nat) (l : list nat) : list (list nat) :=
  chunks (length l / S tdim) (S tdim) l.

(** * The result for one cell *)
Definition volume (tdim : nat) : list point -> R := if tdim =? 2 then area2 else volume6.
(** The children, given by their points: they use the vertices and the midpoints of marked
    edges, and for every position of the vertices they tile the cell and their volumes add
    up. *)
Record subdivides (tdim : nat) (mark : nat -> bool) (children : list (list nat)) : Prop := {
  sd_points : forall c, In c children -> length c = S tdim /\ NoDup c /\
    forall i, In i c -> i <= tdim \/ exists e, i = S tdim + e /\ e < length (ref_edges tdim) /\ mark e = true;
  sd_tiles : forall X, tiles (map (map (place tdim X)) children) (map X (seq 0 (S tdim)));
  sd_volume : forall X, rsum (map (volume tdim) (map (map (place tdim X)) children)) = volume tdim (map X (seq 0 (S tdim)))
}.
(** [pf] has for every facet of every child the facet of the cell it lies on, or -1. *)
Definition parent_facets (tdim : nat) (children : list (list nat)) (pf : list Z) : Prop :=
  length pf = length children * S tdim /\
  forall k child p x q, nth_error children k = Some child -> child = p ++ x :: q ->
    exists v, nth_error pf (k * S tdim + length p) = Some v /\
      ((exists f, f <= tdim /\ v = Z.of_nat f /\ forall i, In i (p ++ q) -> on_facet tdim f i) \/
       (v = (-1)%Z /\ forall f, f <= tdim -> exists i, In i (p ++ q) /\ ~ on_facet tdim f i)).
(** How a facet of a tetrahedron with vertices [a], [b], [c] and longest edge [a b] is
    divided when the edges in [mab], [mac], [mbc] are marked *)
Definition split_half (a b c : nat) (mac : bool) : list (list (nat * nat)) :=
  if mac then [[mid a b; mid c c; mid a c]; [mid a b; mid a c; mid a a]]
  else [[mid a b; mid c c; mid a a]].
Definition split_facet (a b c : nat) (mab mac mbc : bool) : list (list (nat * nat)) :=
  if mab then split_half a b c mac ++ split_half b a c mbc else [[mid a a; mid b b; mid c c]].
(** The same for an edge of a triangle *)
Definition split_side (a b : nat) (m : bool) : list (list (nat * nat)) :=
  if m then [[mid a a; mid a b]; [mid b b; mid a b]] else [[mid a a; mid b b]].

(** What is known about the longest edges and the marks of a cell to be divided *)
Definition ready (tdim : nat) (le : list nat) (mark : nat -> bool) : Prop :=
  if tdim =? 2 then exists l, le = [l] /\ l < 3 /\ mark l = true
  else exists order, Permutation order (seq 0 6) /\ longest_in order le /\ marks_closed le mark.
(** [indices] has a negative number for an edge that is not marked. *)
Definition indices_of (tdim : nat) (mark : nat -> bool) (indices : list Z) : Prop :=
  length indices = S tdim + length (ref_edges tdim) /\
  forall e, e < length (ref_edges tdim) -> exists x, nth_error indices (S tdim + e) = Some x /\ ((0 <= x)%Z <-> mark e = true).

(** * Where the longest edges come from *)
(** A face, the facet without vertex [f] of a tetrahedron: its vertices in the order of the
    face and its edges, edge [i] being the one without vertex [i].  Vertices and edges are
    given by their position in the tetrahedron. *)
Record face_of (f : nat) (w ed : list nat) : Prop := {
  fo_len : length w = 3 /\ length ed = 3;
  fo_nodup : NoDup w;
  fo_vert : forall v, In v w -> v <= 3 /\ v <> f;
  fo_edge : forall i v d, nth_error w i = Some v -> nth_error ed i = Some d ->
    exists a b, nth_error (ref_edges 3) d = Some (a, b) /\ In a w /\ In b w /\ a <> v /\ b <> v
}.
