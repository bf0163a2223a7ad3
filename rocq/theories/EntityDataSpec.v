(** Data on entities given by their nodes: what property C69 refers to. *)
From Verif Require Import Base.

(** A sort by the first component that may change the order of items with the same key. *)
Definition sorts_keys {T} (sort : list (nat * T) -> list (nat * T)) : Prop :=
  forall l, Permutation l (sort l) /\ StronglySorted (fun a b => fst a <= fst b) (sort l).

(** The nodes of an entity at its vertices: [layout] has the cell dof of each node. *)
Definition vertex_nodes (cell_vertex_dofs layout row : list nat) : list nat :=
  map snd (filter (fun p => existsb (Nat.eqb (fst p)) cell_vertex_dofs) (combine layout row)).

(** The mesh on one rank: node [n] of the input is the vertex [v]. *)
Definition vertex_of (cell_vertex_dofs nodes_g : list nat) (c_to_v xdofmap : list (list nat)) (n v : nat) : Prop :=
  exists c k vs xs d x, nth_error c_to_v c = Some vs /\ nth_error vs k = Some v /\
    nth_error xdofmap c = Some xs /\ nth_error cell_vertex_dofs k = Some d /\ nth_error xs d = Some x /\ nth_error nodes_g x = Some n.
(** Each vertex of each cell has a node with an input index below [N], and a node is one vertex. *)
Definition mesh_nodes_ok (cell_vertex_dofs nodes_g : list nat) (c_to_v xdofmap : list (list nat)) (N : nat) : Prop :=
  NoDup nodes_g /\ (forall n, In n nodes_g -> n < N) /\
  (forall c k vs v, nth_error c_to_v c = Some vs -> nth_error vs k = Some v ->
     exists xs d x n, nth_error xdofmap c = Some xs /\ nth_error cell_vertex_dofs k = Some d /\ nth_error xs d = Some x /\ nth_error nodes_g x = Some n) /\
  (forall c vs, nth_error c_to_v c = Some vs -> exists xs, nth_error xdofmap c = Some xs) /\
  (forall n v v', vertex_of cell_vertex_dofs nodes_g c_to_v xdofmap n v -> vertex_of cell_vertex_dofs nodes_g c_to_v xdofmap n v' -> v = v').

(** What a rank gets for an input: the vertices in the order of their input nodes, the same value. *)
Definition found_as {V} (cell_vertex_dofs layout nodes_g : list nat) (c_to_v xdofmap : list (list nat)) (input found : list nat * V) : Prop :=
  snd found = snd input /\
  exists ns, Permutation ns (vertex_nodes cell_vertex_dofs layout (fst input)) /\ StronglySorted le ns /\
    Forall2 (vertex_of cell_vertex_dofs nodes_g c_to_v xdofmap) ns (fst found).
(** A vertex of the entity is not on the rank. *)
Definition not_here {V} (cell_vertex_dofs layout nodes_g : list nat) (c_to_v xdofmap : list (list nat)) (input : list nat * V) : Prop :=
  exists n, In n (vertex_nodes cell_vertex_dofs layout (fst input)) /\ forall v, ~ vertex_of cell_vertex_dofs nodes_g c_to_v xdofmap n v.
