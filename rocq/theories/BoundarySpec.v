(** Boundary vertices of ranks and reordered cells: what property C65 refers to. *)
From Verif Require Import Base CellTypes DualGraphSpec.
From Coq Require Import Relation_Operators.
Open Scope nat_scope.

(** Facet [i] of cell [k] in the array [a] of the vertices of cells of type [c] has the
    vertices [vs]. *)
Definition facet_vertices (c : cell_type) (a : list Z) (k i : nat) (vs : list Z) : Prop :=
  k < length a / verts c /\
  exists fv, nth_error (facets c) i = Some fv /\ vs = map (fun x => nth (k * verts c + x) a 0%Z) fv.

(** One rank: [own t] has the vertices of the owned cells of type number [t].  A facet is
    given by the number of the type, the cell and the facet of the cell. *)
Section Rank.
Variables (ts : list cell_type) (own : nat -> list Z).
Definition rank_facet (id : nat * (nat * nat)) (vs : list Z) : Prop :=
  exists c, nth_error ts (fst id) = Some c /\ facet_vertices c (own (fst id)) (fst (snd id)) (snd (snd id)) vs.
(** Fewer than [m] facets of the rank have the vertices [vs]. *)
Definition fewer_than (m : nat) (vs : list Z) : Prop :=
  exists l, NoDup l /\ (forall id, In id l <-> exists vs', rank_facet id vs' /\ Permutation vs vs') /\ length l < m.
(** No other facet of the rank has the vertices [vs] of the facet [id]. *)
Definition only (id : nat * (nat * nat)) (vs : list Z) : Prop :=
  forall id' vs', rank_facet id' vs' -> Permutation vs vs' -> id' = id.
(** At most two facets of the rank have the same vertices. *)
Definition at_most_two : Prop :=
  forall id0 id1 id2 vs0 vs1 vs2, rank_facet id0 vs0 -> rank_facet id1 vs1 -> rank_facet id2 vs2 ->
    Permutation vs0 vs1 -> Permutation vs0 vs2 -> id0 = id1 \/ id0 = id2 \/ id1 = id2.
(** No facet has all vertices of another one and more. *)
Definition no_part : Prop :=
  forall id vs id' vs', rank_facet id vs -> rank_facet id' vs' -> incl vs vs' -> length vs' <= length vs.
End Rank.

(** Blocks of [w] entries for each of the first [n] cells are moved to the positions
    [sigma]; what follows (ghosts) is kept. *)
Definition cells_reordered {A} (w n : nat) (sigma : list nat) (old new : list A) : Prop :=
  length new = length old /\
  (forall j p x, nth_error sigma j = Some p -> x < w -> nth_error new (p * w + x) = nth_error old (j * w + x)) /\
  (forall y, n * w <= y -> nth_error new y = nth_error old y).

(** The cells of one rank, owned ones first: for type number [t] the number [n t] of owned
    cells, nodes, vertices and original indices of all cells, and the number of ghosts. *)
Section Input.
Variables (ts : list cell_type) (num_dofs n : nat -> nat) (nodes cells original : nat -> list Z) (ghosts : nat -> nat).
Definition nverts (t : nat) : nat := match nth_error ts t with Some c => verts c | None => 0 end.
Definition nfacets (t : nat) : nat := match nth_error ts t with Some c => length (facets c) | None => 0 end.
Definition owned (t : nat) : list Z := firstn (n t * nverts t) (cells t).
Definition owned_facets : nat := lsum (map (fun t => n t * nfacets t) (seq 0 (length ts))).
Record cells_input : Prop := {
  ci_dim : forall c, In c ts -> 0 < cell_dim c;
  ci_original : forall t, t < length ts -> length (original t) = n t + ghosts t;
  ci_cells : forall t, t < length ts -> length (cells t) = length (original t) * nverts t;
  ci_nodes : forall t, t < length ts -> length (nodes t) = length (original t) * num_dofs t;
  ci_vertices : forall t v, t < length ts -> In v (cells t) -> (0 <= v < 2 ^ 63 - 1)%Z;
  ci_size : (N.of_nat owned_facets < 2 ^ 63)%N
}.
End Input.

(** All ranks: cell [k] of type number [t] of rank [r] is (r, (t, k)). *)
Section World.
Variables (P : nat) (ts : list cell_type) (own : nat -> nat -> list Z).
Notation cell := (nat * (nat * nat))%type.
Definition is_cell (a : cell) (c : cell_type) : Prop :=
  fst a < P /\ nth_error ts (fst (snd a)) = Some c /\ snd (snd a) < length (own (fst a) (fst (snd a))) / verts c.
Definition cell_vertex (a : cell) (v : Z) : Prop :=
  exists c x, is_cell a c /\ x < verts c /\ nth_error (own (fst a) (fst (snd a))) (snd (snd a) * verts c + x) = Some v.
Definition cell_facet (a : cell) (i : nat) (vs : list Z) : Prop :=
  fst a < P /\ rank_facet ts (own (fst a)) (fst (snd a), (snd (snd a), i)) vs.
(** At most [m] cells have a facet with the same vertices. *)
Definition facets_shared_by (m : nat) : Prop :=
  forall vs (l : list (cell * nat)), NoDup l ->
    (forall a i, In (a, i) l -> exists vs', cell_facet a i vs' /\ Permutation vs vs') -> length l <= m.
(** Cells [a] and [b] share a facet with vertex [v]. *)
Definition adjacent_at (v : Z) (a b : cell) : Prop :=
  exists i j vs vs', cell_facet a i vs /\ cell_facet b j vs' /\ Permutation vs vs' /\ In v vs.
(** From every cell with vertex [v] one can reach every other one through facets with [v]. *)
Definition facet_connected : Prop :=
  forall v a b, cell_vertex a v -> cell_vertex b v -> clos_refl_trans_1n _ (adjacent_at v) a b.
End World.

(** Distributed cells, as in TopoCreateSpec.topology_input but without the boundary vertices:
    [n t r] owned cells of type number [t] on rank [r], followed by ghosts with the given
    owners. *)
Section Distributed.
Variables (P types : nat) (nv : nat -> nat) (n : nat -> nat -> nat) (cells original : nat -> nat -> list Z) (owners : nat -> nat -> list nat).
Record distributed_cells : Prop := {
  dc_once : forall t r, t < types -> r < P -> NoDup (original t r);
  dc_owner : forall t r s c d g, t < types -> r < P -> s < P -> c < n t r -> d < n t s ->
    nth_error (original t r) c = Some g -> nth_error (original t s) d = Some g -> r = s;
  dc_ghost : forall t r k o g, t < types -> r < P ->
    nth_error (owners t r) k = Some o -> nth_error (original t r) (n t r + k) = Some g ->
    o < P /\ o <> r /\ exists c, c < n t o /\ nth_error (original t o) c = Some g /\
      forall j, j < nv t ->
        nth_error (cells t r) ((n t r + k) * nv t + j) = nth_error (cells t o) (c * nv t + j)
}.
End Distributed.
