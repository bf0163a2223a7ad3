(** What it means that cells divide a cell. *)
From Coq Require Import Reals.
From Verif Require Import Base IndexMap IndexMapSpec CellTypes GenerationSpec Uniform.
Open Scope nat_scope.

(** ** The new vertices of a cell *)
(** The entities of dimension [d] that get a new vertex: vertices, edges, quadrilaterals and
    hexahedra.  They are given by their vertices. *)
Definition kind (d : nat) : cell_type := nth d [Point; Interval; Quadrilateral; Hexahedron] Point.
Definition new_entities (t : cell_type) (d : nat) : list (list nat) :=
  let es := nth d (topology t) [] in
  map snd (filter (fun fv => cell_eqb (cell_entity_type t d (fst fv)) (kind d)) (combine (seq 0 (length es)) es)).
Definition new_vertices (t : cell_type) : list (list nat) := concat (map (new_entities t) (seq 0 (S (cell_dim t)))).
Definition mean (f : nat -> R) (vs : list nat) : R := (rsum (map f vs) / INR (length vs))%R.

(** The weights of the vertices in the points of a cell; a pyramid is the convex hull of its
    vertices. *)
Definition cell_weights (t : cell_type) : list R -> Prop :=
  match t with
  | Point => simplex_weights 1
  | Interval => simplex_weights 2
  | Triangle => simplex_weights 3
  | Tetrahedron => simplex_weights 4
  | Quadrilateral => quad_weights
  | Hexahedron => hex_weights
  | Prism => prism_weights
  | Pyramid => simplex_weights 5
  end.
(** [x] is the point with weights [l] of a cell of type [t] with vertices at [X 0], [X 1]... *)
Definition point_of (t : cell_type) (X : nat -> nat -> R) (l : list R) (x : nat -> R) : Prop :=
  cell_weights t l /\ forall j, x j = comb (X j) (seq 0 (num_cell_vertices t)) l.
(** [x] is the point with weights [m] of the child with vertices [c], each at the mean place of
    the vertices of its entity. *)
Definition point_of_child (t u : cell_type) (X : nat -> nat -> R) (c : list nat) (m : list R) (x : nat -> R) : Prop :=
  cell_weights u m /\ forall j, x j = comb (fun i => mean (X j) (nth i (new_vertices t) [])) c m.
(** Different weights give different points. *)
Definition proper (t : cell_type) (X : nat -> nat -> R) : Prop :=
  forall l l' x, point_of t X l x -> point_of t X l' x -> l = l'.

(** The cells [cs] of type [t] with vertices in [new_vertices t] divide a cell of type [t],
    wherever its vertices are. *)
Record divides (t : cell_type) (cs : list (list nat)) : Prop := {
  dv_vertices : forall c, In c cs -> NoDup c /\ length c = num_cell_vertices t /\ forall i, In i c -> i < length (new_vertices t);
  dv_used : forall i, i < length (new_vertices t) -> exists c, In c cs /\ In i c;
  dv_once : ForallOrdPairs (fun c c' => ~ Permutation c c') cs;
  (** The children cover the cell and nothing else. *)
  dv_cover : forall X x, (exists l, point_of t X l x) <-> exists c m, In c cs /\ point_of_child t t X c m x;
  (** Where two children meet, the same vertices have the same weights in both. *)
  dv_match : forall X, proper t X -> forall c c' m m' x, In c cs -> In c' cs ->
    point_of_child t t X c m x -> point_of_child t t X c' m' x -> forall i, weight i c m = weight i c' m'
}.

(** The cells of a list of vertices *)
Definition groups (k : nat) (l : list nat) : list (list nat) :=
  map (fun i => firstn k (skipn (i * k) l)) (seq 0 (length l / k)).
(** The children of a cell with their types, as the code lists them *)
Definition children (t : cell_type) : list (cell_type * list nat) :=
  match refined_cell_list t with
  | Some l => map (pair t) (groups (num_cell_vertices t) l)
              ++ match t with Pyramid => map (pair Tetrahedron) (groups 4 pyr_to_tet_list) | _ => [] end
  | None => []
  end.

(** ** Facets *)
(** The facets of the cell: type and vertices *)
Definition facets (t : cell_type) : list (cell_type * list nat) :=
  let fs := nth (cell_dim t - 1) (topology t) [] in
  map (fun fv => (cell_facet_type t (fst fv), snd fv)) (combine (seq 0 (length fs)) fs).
(** The facets of the children [cs] on the facet with vertices [fv]; a new vertex is given by
    the vertices of its entity, and those have the names [s]. *)
Definition pieces (t : cell_type) (cs : list (cell_type * list nat)) (fv : list nat) (s : nat -> nat) : list (list (list nat)) :=
  concat (map (fun uc => concat (map (fun f =>
    let vs := map (fun k => nth (nth k (snd uc) 0) (new_vertices t) []) (snd f) in
    if forallb (fun v => subset v fv) vs then [map (map s) vs] else []) (facets (fst uc)))) cs).
(** The same sets of sets of names *)
Definition same_set (a b : list nat) : Prop := forall x, In x a <-> In x b.
Definition same_piece (p q : list (list nat)) : Prop :=
  (forall a, In a p -> exists b, In b q /\ same_set a b) /\ (forall b, In b q -> exists a, In a p /\ same_set a b).
Definition same_pieces (ps qs : list (list (list nat))) : Prop :=
  (forall p, In p ps -> exists q, In q qs /\ same_piece p q) /\ (forall q, In q qs -> exists p, In p ps /\ same_piece p q).
(** [s] and [s'] give the facets with vertices [fv] and [fv'] the same vertices and edges. *)
Definition glued (t t' : cell_type) (fv fv' : list nat) (s s' : nat -> nat) : Prop :=
  NoDup (map s fv) /\ same_set (map s fv) (map s' fv') /\ length fv = length fv' /\
  forall e, In e (nth 1 (topology t) []) -> subset e fv = true ->
    exists e', In e' (nth 1 (topology t') []) /\ subset e' fv' = true /\ same_set (map s e) (map s' e').

(** ** Distributed meshes *)
Section World.
Context {T : Type}.
Variable P : nat.
(** The types of the entities of every dimension; the last are the cells. *)
Variable types : list (list cell_type).
Variable mesh : nat -> umesh T.
Notation dim := (length types - 1).
Notation cell_types := (last types []).
(** [kinds] gives, for dimensions with new vertices, the place of the type in [types]; [M j r]
    is the index map of these entities on rank [r], [CM k r] that of the cells of type [k]. *)
Variable kinds : list nat.
Variables M CM : nat -> nat -> imap.
(** The vertices of every such entity and the coordinates of every vertex, by global numbers *)
Variable verts : nat -> nat -> list nat.
Variable pos : nat -> nat -> T.

(** The entities with new vertices of cell [c] of type [k] on rank [r], by local numbers *)
Definition links (r k c j : nat) : option (list nat) :=
  let row := fun e => conn <- um_conn (mesh r) (dim, k) (j, e) ;; nth_error conn c in
  if j <=? 1 then row 0
  else if j <? dim then
    match um_conn (mesh r) (dim, k) (j, nth j kinds 0) with Some _ => row (nth j kinds 0) | None => Some [] end
  else match nth_error cell_types k with Some t => Some (if cell_eqb t (kind j) then [c] else []) | None => None end.

Record refinable : Prop := {
  (** Dimension two or three; the types are those of the entities of the cells, and [kinds]
      finds those that get a new vertex. *)
  rf_dim : 2 <= dim <= 3;
  rf_low : nth 0 types [] = [Point] /\ nth 1 types [] = [Interval];
  rf_cell : forall t, In t cell_types -> cell_dim t = dim;
  rf_types : forall j, NoDup (nth j types []);
  rf_kinds : forall j, match nth_error kinds j with
                       | Some e => nth_error (nth j types []) e = Some (kind j)
                       | None => 2 <= j /\ ~ In (kind j) (nth j types [])
                       end;
  rf_more : forall t j, In t cell_types -> length kinds <= j -> new_entities t j = [];
  rf_pyramid : In Pyramid cell_types -> In Tetrahedron cell_types;
  (** Index maps *)
  rf_maps : forall j, j < length kinds -> maps_ok P (M j);
  rf_map : forall r j, r < P -> j < length kinds ->
    exists ms, nth_error (um_maps (mesh r)) j = Some ms /\ nth_error ms (nth j kinds 0) = Some (M j r);
  rf_cell_map : forall r k, r < P -> k < length cell_types ->
    exists ms, nth_error (um_maps (mesh r)) dim = Some ms /\ nth_error ms k = Some (CM k r);
  (** The owned edges, quadrilaterals and hexahedra have the right vertices. *)
  rf_entity : forall r j, r < P -> 1 <= j < length kinds ->
    exists ev, um_conn (mesh r) (j, nth j kinds 0) (0, 0) = Some ev /\
      forall w, w < size_local (M j r) -> exists vs gs, nth_error ev w = Some vs /\
        omap (local_to_global (M 0 r)) vs = Some gs /\ Permutation gs (verts j (im_lo (M j r) + w));
  (** Every vertex is in a cell. *)
  rf_vertex : forall r v, r < P -> v < size_local (M 0 r) + num_ghosts (M 0 r) ->
    exists k c vs, k < length cell_types /\ c < size_local (CM k r) + num_ghosts (CM k r) /\ links r k c 0 = Some vs /\ In v vs;
  (** The vertices and edges of the cells are known. *)
  rf_conn : forall r k j, r < P -> k < length cell_types -> j <= 1 -> um_conn (mesh r) (dim, k) (j, 0) <> None;
  (** Geometry: the element has one node for every vertex, where the vertex is. *)
  rf_geometry : forall r k, r < P -> k < length cell_types ->
    exists dofmap dofs n, nth_error (um_dofmaps (mesh r)) k = Some dofmap /\
      nth_error (um_layouts (mesh r)) k = Some (n, map (fun d => [d]) dofs) /\ n = length dofs /\
      forall c, c < size_local (CM k r) + num_ghosts (CM k r) ->
        exists vs row, links r k c 0 = Some vs /\ nth_error dofmap c = Some row /\ length vs = n /\
          forall i v d, nth_error vs i = Some v -> nth_error dofs i = Some d ->
            exists p g, nth_error row d = Some p /\ local_to_global (M 0 r) v = Some g /\
              forall a, a < 3 -> nth_error (um_x (mesh r)) (3 * p + a) = Some (pos g a);
  (** The entities of owned cells are those of the reference cell. *)
  rf_links : forall r k t c, r < P -> nth_error cell_types k = Some t -> c < size_local (CM k r) ->
    exists vs cv, links r k c 0 = Some vs /\ omap (local_to_global (M 0 r)) vs = Some cv /\ length cv = num_cell_vertices t /\
      forall j, 1 <= j < length kinds -> exists es gs, links r k c j = Some es /\ omap (local_to_global (M j r)) es = Some gs /\
        Forall2 (fun vs g => Permutation (verts j g) (map (fun v => nth v cv 0) vs)) (new_entities t j) gs
}.

(** [L] lists the entities with new vertices, by dimension and global number: vertex [n] of the
    new mesh is in the middle of entity [n] of the list. *)
Definition enumerates (L : list (nat * nat)) : Prop :=
  NoDup L /\ forall j g, In (j, g) L <-> j < length kinds /\ exists o, o < P /\ owns (M j o) g.
(** The coordinates of the new vertex: those of the vertex, or the mean (in the arithmetic of
    the code) of those of the vertices of the entity in some order *)
Definition middle (zero : T) (add : T -> T -> T) (div : T -> nat -> T) (jg : nat * nat) (x : list T) : Prop :=
  if fst jg =? 0 then x = map (pos (snd jg)) (seq 0 3)
  else exists gs, Permutation gs (verts (fst jg) (snd jg)) /\
    x = map (fun a => div (fold_left add (map (fun v => pos v a) gs) zero) (length gs)) (seq 0 3).
(** [N] are the numbers of the new vertices of cell [c]: vertex [i] is the middle of the entity
    with the vertices [nth i (new_vertices t)] of the cell. *)
Definition cell_numbers (L : list (nat * nat)) (r k c : nat) (N : list nat) : Prop :=
  exists t vs cv, nth_error cell_types k = Some t /\ links r k c 0 = Some vs /\ omap (local_to_global (M 0 r)) vs = Some cv /\
    Forall2 (fun e n => exists j g, nth_error L n = Some (j, g) /\
      Permutation (if j =? 0 then [g] else verts j g) (map (fun v => nth v cv 0) e)) (new_vertices t) N.
(** The children of type [u] of a cell of type [t] with new vertices [N] *)
Definition child_cells (u t : cell_type) (N : list nat) : list nat :=
  concat (map (fun uc => if cell_eqb (fst uc) u then map (fun i => nth i N 0) (snd uc) else []) (children t)).
End World.
