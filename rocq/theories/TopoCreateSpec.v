(** Input and result of create_topology: what property C64 refers to. *)
From Verif Require Import Base IndexMap IndexMapSpec.
Open Scope nat_scope.

Section Spec.
Variables (P types : nat) (nv : nat -> nat).
(** n t r: number of cells of type t that rank r owns; the ghosts follow. *)
Variables (n : nat -> nat -> nat) (cells original : nat -> nat -> list Z) (owners : nat -> nat -> list nat).
Variable boundary : nat -> list Z.

(** Rank [r] has vertex [v]: in some cell, in a cell that it owns. *)
Definition has_vertex (r : nat) (v : Z) : Prop := exists t, t < types /\ In v (cells t r).
Definition has_owned_vertex (r : nat) (v : Z) : Prop :=
  exists t c j, t < types /\ c < n t r /\ j < nv t /\ nth_error (cells t r) (c * nv t + j) = Some v.

Record topology_input : Prop := {
  ti_nv : forall t, t < types -> 0 < nv t;
  ti_len : forall t r, t < types -> r < P ->
    length (original t r) = n t r + length (owners t r) /\ length (cells t r) = length (original t r) * nv t;
  ti_nonneg : forall t r v, t < types -> r < P -> In v (cells t r) -> (0 <= v)%Z;
  (* a cell is held once by a rank, and owned by one rank *)
  ti_once : forall t r, t < types -> r < P -> NoDup (original t r);
  ti_owner : forall t r s c d g, t < types -> r < P -> s < P -> c < n t r -> d < n t s ->
    nth_error (original t r) c = Some g -> nth_error (original t s) d = Some g -> r = s;
  (* the owner of a ghost is another rank; it owns the cell, with the same vertices *)
  ti_ghost : forall t r k o g, t < types -> r < P ->
    nth_error (owners t r) k = Some o -> nth_error (original t r) (n t r + k) = Some g ->
    o < P /\ o <> r /\ exists c, c < n t o /\ nth_error (original t o) c = Some g /\
      forall j, j < nv t ->
        nth_error (cells t r) ((n t r + k) * nv t + j) = nth_error (cells t o) (c * nv t + j);
  (* boundary vertices: sorted, in owned cells, and all that owned cells of two ranks share *)
  ti_sorted : forall r, r < P -> StronglySorted Z.lt (boundary r);
  ti_boundary : forall r v, r < P -> In v (boundary r) -> has_owned_vertex r v;
  ti_shared : forall r s v, r < P -> s < P -> r <> s -> has_owned_vertex r v -> has_owned_vertex s v ->
    In v (boundary r)
}.

(** [num v]: global number of the vertex with input index [v]. *)
Record topology_result (num : Z -> nat) (vmap : nat -> imap) (cmap : nat -> nat -> imap) (conn : nat -> nat -> list nat)
  : Prop := {
  (* the index maps are consistent *)
  tr_vmap : maps_ok P vmap;
  tr_cmap : forall t, t < types -> maps_ok P (cmap t);
  (* cells: owned ones first, and the same global number exactly for the same cell *)
  tr_cells : forall t r, t < types -> r < P ->
    size_local (cmap t r) = n t r /\ length (original t r) = n t r + num_ghosts (cmap t r);
  tr_cell_number : forall t r s c d g h, t < types -> r < P -> s < P ->
    nth_error (original t r) c = Some g -> nth_error (original t s) d = Some h ->
    exists a b, local_to_global (cmap t r) c = Some a /\ local_to_global (cmap t s) d = Some b /\ (a = b <-> g = h);
  (* every cell has its vertices, in order: the global number of the local index is the number
     of the vertex *)
  tr_conn : forall t r, t < types -> r < P -> length (conn t r) = length (cells t r);
  tr_vertex : forall t r j v l, t < types -> r < P ->
    nth_error (cells t r) j = Some v -> nth_error (conn t r) j = Some l ->
    local_to_global (vmap r) l = Some (num v);
  (* the owner of a vertex owns a cell with it *)
  tr_owner : forall r v, r < P -> has_vertex r v ->
    owns (vmap r) (num v) -> has_owned_vertex r v;
  (* global numbers: one for every vertex, without gaps *)
  tr_inj : forall r s v w, r < P -> s < P -> has_vertex r v -> has_vertex s w -> num v = num w -> v = w;
  tr_onto : forall r i, r < P -> (i < im_size_global (vmap r) <-> exists s v, s < P /\ has_vertex s v /\ num v = i);
  (* every local index is that of a vertex of some cell *)
  tr_local : forall r l, r < P -> l < size_local (vmap r) + num_ghosts (vmap r) -> exists t, t < types /\ In l (conn t r)
}.
End Spec.
