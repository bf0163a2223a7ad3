(** What it means that cells tile a box. *)
From Coq Require Import Reals.
From Verif Require Import Base.
Open Scope nat_scope.

Definition rsum (l : list R) : R := fold_right Rplus 0%R l.
(** The sum of the values of [f] at the members of [c] times their weights *)
Definition comb {A} (f : A -> R) (c : list A) (l : list R) : R :=
  rsum (map (fun vw => f (fst vw) * snd vw)%R (combine c l)).

(** ** Weights of the vertices in the points of a cell *)
Definition unit (t : R) : Prop := (0 <= t <= 1)%R.
(** Simplices: all weights with sum one *)
Definition simplex_weights (k : nat) (l : list R) : Prop :=
  length l = k /\ (forall a, In a l -> (0 <= a)%R) /\ rsum l = 1%R.
(** Products; the vertices of the first factor come first. *)
Definition segment (t : R) : list R := [(1 - t)%R; t].
Definition times (l m : list R) : list R := concat (map (fun b => map (fun a => (a * b)%R) l) m).
Definition quad_weights (l : list R) : Prop :=
  exists s t, unit s /\ unit t /\ l = times (segment s) (segment t).
Definition hex_weights (l : list R) : Prop :=
  exists s t u, unit s /\ unit t /\ unit u /\ l = times (times (segment s) (segment t)) (segment u).
Definition prism_weights (l : list R) : Prop :=
  exists k t, simplex_weights 3 k /\ unit t /\ l = times k (segment t).

(** ** Meshes *)
(** Coordinate [j] of vertex [v]; coordinates that are not stored are zero. *)
Definition coordinate (X : list (list R)) (j v : nat) : R := nth j (nth v X []) 0%R.
(** [x] is the point of cell [c] with the weights [l]. *)
Definition cell_point (W : list R -> Prop) (X : list (list R)) (c : list nat) (l : list R) (x : nat -> R) : Prop :=
  W l /\ length c = length l /\ forall j, x j = comb (coordinate X j) c l.
(** The weight of a vertex; zero for those which the cell does not have *)
Definition weight (v : nat) (c : list nat) (l : list R) : R := comb (fun u => if u =? v then 1%R else 0%R) c l.
Definition inside (lo hi x : nat -> R) : Prop := forall j, (lo j <= x j <= hi j)%R.

(** Points [X] and cells [cells], with weights [W], tile the box from [lo] to [hi]. *)
Record tiling (W : list R -> Prop) (X : list (list R)) (cells : list (list nat)) (lo hi : nat -> R) : Prop := {
  (** Cells are made of different points, different points have different places, and every
      point is used. *)
  ti_vertices : forall c, In c cells -> NoDup c /\ forall v, In v c -> v < length X;
  ti_points : forall v w, v < length X -> w < length X -> (forall j, coordinate X j v = coordinate X j w) -> v = w;
  ti_used : forall v, v < length X -> exists c, In c cells /\ In v c;
  (** No cell appears twice, not even with its vertices in another order. *)
  ti_once : ForallOrdPairs (fun c c' => ~ Permutation c c') cells;
  (** The cells cover the box and nothing else. *)
  ti_cover : forall x, inside lo hi x <-> exists c l, In c cells /\ cell_point W X c l x;
  (** Where two cells meet, the same vertices have the same weights in both: the cells meet in
      common vertices, edges and facets, their interiors are disjoint, and every function that
      is given by values at the vertices is continuous. *)
  ti_match : forall c c' l m x, In c cells -> In c' cells -> cell_point W X c l x -> cell_point W X c' m x ->
    forall v, weight v c l = weight v c' m
}.

(** The corners of a box in the first coordinates; all others are zero. *)
Definition corner (l : list R) (j : nat) : R := nth j l 0%R.

(** ** Boxes *)
From Verif Require Import Generation.
Definition box_weights (celltype : shape) : list R -> Prop :=
  match celltype with
  | tetrahedron => simplex_weights 4
  | hexahedron => hex_weights
  | prism => prism_weights
  | _ => fun _ => False
  end.
(** The number of cells in every cuboid *)
Definition box_count (celltype : shape) : nat :=
  match celltype with tetrahedron => 6 | hexahedron => 1 | prism => 2 | _ => 0 end.
Definition is_solid (celltype : shape) : bool :=
  match celltype with tetrahedron | hexahedron | prism => true | _ => false end.

(** ** Triangles *)
Definition tri_points (diagonal : diagonal_type) (nx ny : nat) : nat :=
  (nx + 1) * (ny + 1) + match diagonal with crossed => nx * ny | _ => 0 end.
Definition tri_count (diagonal : diagonal_type) : nat := match diagonal with crossed => 4 | _ => 2 end.
(** Is the square in column [ix] and row [iy] divided by the line from its lower left to its
    upper right corner, or by the other one? *)
Definition rising (diagonal : diagonal_type) (ix iy : nat) : bool :=
  match diagonal with
  | right | shared_facet => true
  | left | crossed => false
  | left_right => Nat.even (ix + iy)
  | right_left => Nat.odd (ix + iy)
  end.
Definition falling (diagonal : diagonal_type) (ix iy : nat) : bool :=
  match diagonal with
  | left => true
  | right | shared_facet | crossed => false
  | left_right => Nat.odd (ix + iy)
  | right_left => Nat.even (ix + iy)
  end.
(** Some cell has vertices at [p] and [q]. *)
Definition joined (X : list (list R)) (cells : list (list nat)) (p q : nat -> R) : Prop :=
  exists c v w, In c cells /\ In v c /\ In w c /\ forall j, coordinate X j v = p j /\ coordinate X j w = q j.
(** The points of the grid on a rectangle *)
Definition grid_point (x0 y0 x1 y1 : R) (nx ny ix iy : nat) : nat -> R :=
  corner [ (x0 + (x1 - x0) * INR ix / INR nx)%R; (y0 + (y1 - y0) * INR iy / INR ny)%R ].
