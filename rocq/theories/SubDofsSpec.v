(** What sub-layouts, sub-dofmaps and collapsed dofmaps are. *)
From Verif Require Import Base IndexMap IndexMapSpec CellTypes DofBuilder DofSpec SubDofs.
Open Scope nat_scope.

(** The sub-layout at the end of a path of components *)
Fixpoint sub_at (l : lay) (component : list nat) : option lay :=
  match component with [] => Some l | c :: rest => s <- nth_error (lay_subs l) c ;; sub_at s rest end.
(** The positions in the root of the dofs of the sub-layout at the end of a path: the parent map
    of each level in turn *)
Fixpoint positions (l : lay) (component : list nat) : option (list nat) :=
  match component with
  | [] => Some (seq 0 (lay_width l))
  | c :: rest => s <- nth_error (lay_subs l) c ;; v <- positions s rest ;; omap (nth_error (lay_pmap s)) v
  end.
(** Every sub-layout has a parent map that gives a position of its parent for each of its own. *)
Inductive lay_ok : lay -> Prop :=
  | lay_ok_intro l : (forall s, In s (lay_subs l) -> length (lay_pmap s) = lay_width s /\ (forall p, In p (lay_pmap s) -> p < lay_width l) /\ lay_ok s) -> lay_ok l.
(** The dof in position [p] of a cell with blocks: block [p / bs], component [p mod bs] *)
Definition unblocked (bs : nat) (row : list nat) (p : nat) : option nat := x <- nth_error row (p / bs) ;; Some (bs * x + p mod bs).
(** A dofmap whose rows have the width of the layout *)
Definition dmap_ok (d : dmap) : Prop :=
  lay_ok (dp_lay d) /\ 0 < dp_bs d /\ forall row, In row (dp_rows d) -> length row * dp_bs d = lay_width (dp_lay d).

(** The sub-dofmap for component [c] of each level *)
Fixpoint extract_path (d : dmap) (component : list nat) : option dmap :=
  match component with [] => Some d | c :: rest => s <- extract_sub_dofmap d [c] ;; extract_path s rest end.

(** Dofs of a view that are collapsed: dofs of the map, at most one of each block; an owner has
    the blocks that others have. *)
Record view_ok (P : nat) (maps : nat -> imap) (ibs : nat) (views : nat -> dmap) : Prop := {
  vo_bs : 0 < ibs;
  vo_lay : forall r, r < P -> lay_bs (dp_lay (views r)) <= 1;
  vo_dofs : forall r row d, r < P -> In row (dp_rows (views r)) -> In d row -> d / ibs < map_size (maps r);
  vo_one : forall r row d row' d', r < P -> In row (dp_rows (views r)) -> In d row -> In row' (dp_rows (views r)) -> In d' row' -> d / ibs = d' / ibs -> d = d';
  vo_owner : forall r q row d g, r < P -> q < P -> In row (dp_rows (views q)) -> In d row -> local_to_global (maps q) (d / ibs) = Some g -> owns (maps r) g ->
    exists row' d', In row' (dp_rows (views r)) /\ In d' row' /\ local_to_global (maps r) (d' / ibs) = Some g
}.
(** Two arrays of rows of the same shape *)
Definition same_shape (rows rows' : list (list nat)) : Prop := map (@length nat) rows = map (@length nat) rows'.
Definition entry (rows : list (list nat)) (c i x : nat) : Prop := exists row, nth_error rows c = Some row /\ nth_error row i = Some x.
Record collapsed_ok (P : nat) (maps : nat -> imap) (ibs : nat) (views : nat -> dmap) (new : nat -> imap) (rows : nat -> list (list nat)) (cmap : nat -> list nat) : Prop := {
  co_maps : maps_ok P new;
  co_shape : forall r, r < P -> same_shape (rows r) (dp_rows (views r));
  (* the map sends the new dof of a cell to the old one *)
  co_entry : forall r c i x d, r < P -> entry (rows r) c i x -> entry (dp_rows (views r)) c i d -> nth_error (cmap r) x = Some d;
  (* it is a bijection from the new dofs to the old ones *)
  co_length : forall r, r < P -> length (cmap r) = map_size (new r);
  co_inj : forall r, r < P -> NoDup (cmap r);
  co_onto : forall r d, r < P -> (In d (cmap r) <-> exists c i, entry (dp_rows (views r)) c i d);
  (* ranks agree *)
  co_same : forall r r' x x' d d' g g' n n', r < P -> r' < P -> nth_error (cmap r) x = Some d -> nth_error (cmap r') x' = Some d' ->
    local_to_global (maps r) (d / ibs) = Some g -> local_to_global (maps r') (d' / ibs) = Some g' ->
    local_to_global (new r) x = Some n -> local_to_global (new r') x' = Some n' -> (n = n' <-> g = g');
  co_owned : forall r x d, r < P -> nth_error (cmap r) x = Some d -> (x < size_local (new r) <-> d / ibs < size_local (maps r))
}.

(** The sub-element with layout [S] and [bs] values for each dof, at positions [pos] of the element
    with layout [L], puts its dofs on the entities they have in [S]: value [k] of dof [j] of an
    entity of type [t] is dof [J d t j k] of the entity. *)
Definition same_places (tp : topo) (L S : layout) (bs : nat) (pos : list nat) (J : nat -> cell_type -> nat -> nat -> nat) : Prop :=
  (forall d e t ds j p k, on_entity tp [S] 0 d e t ds -> nth_error ds j = Some p -> k < bs ->
    exists ds' q, on_entity tp [L] 0 d e t ds' /\ nth_error ds' (J d t j k) = Some q /\ nth_error pos (bs * p + k) = Some q) /\
  forall d t j k j' k', k < bs -> k' < bs -> J d t j k = J d t j' k' -> j = j' /\ k = k'.
(** The rows of a view: positions [pos] of the rows of the parent *)
Definition view_of (rows : list (list nat)) (pos : list nat) (view : list (list nat)) : Prop :=
  length view = length rows /\ forall c row, nth_error rows c = Some row -> exists vrow, nth_error view c = Some vrow /\ omap (nth_error row) pos = Some vrow.
