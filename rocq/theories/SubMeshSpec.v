(** Sub-meshes: what property C66 refers to. *)
From Verif Require Import Base IndexMap IndexMapSpec.

(** A numbering [subs] of the chosen indices of [maps] on all ranks; [s2p r] has the local
    index in [maps r] for each local index of [subs r]. *)
Record sub_numbering (P : nat) (maps : nat -> imap) (chosen : nat -> nat -> Prop) (subs : nat -> imap) (s2p : nat -> list nat) : Prop := {
  sn_maps : maps_ok P subs;
  (* exactly the chosen indices, each once *)
  sn_len : forall r, r < P -> length (s2p r) = size_local (subs r) + num_ghosts (subs r);
  sn_once : forall r, r < P -> NoDup (s2p r);
  sn_in : forall r i, r < P -> In i (s2p r) <-> chosen r i;
  (* the same number exactly for the same global index *)
  sn_number : forall r q j k i h g g' n n', r < P -> q < P ->
    nth_error (s2p r) j = Some i -> local_to_global (maps r) i = Some g -> local_to_global (subs r) j = Some n ->
    nth_error (s2p q) k = Some h -> local_to_global (maps q) h = Some g' -> local_to_global (subs q) k = Some n' ->
    (n = n' <-> g = g');
  (* the owner has chosen the index, and the old owner is preferred *)
  sn_owner : forall r q j i g n, r < P -> q < P ->
    nth_error (s2p r) j = Some i -> local_to_global (maps r) i = Some g -> local_to_global (subs r) j = Some n ->
    owns (subs q) n -> exists h, chosen q h /\ local_to_global (maps q) h = Some g;
  sn_keeps : forall r q j i g n h, r < P -> q < P ->
    nth_error (s2p r) j = Some i -> local_to_global (maps r) i = Some g -> local_to_global (subs r) j = Some n ->
    owns (maps q) g -> chosen q h -> local_to_global (maps q) h = Some g -> owns (subs q) n
}.

(** [new] lists for the entities [ents], in new numbers, what [old] lists in old ones. *)
Definition same_rows (s2p ents : list nat) (old : nat -> list nat -> Prop) (new : list (list nat)) : Prop :=
  length new = length ents /\
  forall j e vs, nth_error ents j = Some e -> old e vs ->
    exists row, nth_error new j = Some row /\ Forall2 (fun s v => nth_error s2p s = Some v) row vs.
(** Items selected by a list of positions. *)
Definition selected {A} (s2p : list nat) (old new : list A) : Prop :=
  length new = length s2p /\ forall i d, nth_error s2p i = Some d -> d < length old /\ nth_error new i = nth_error old d.

(** Geometry dofs of entity [e]: those in the closure of the entity in its first cell, in the
    order given by the permutation. *)
Section GeometryDofs.
Variables (tdim dim : nat) (closure : nat -> nat -> list nat) (perm : nat -> nat -> list nat -> list nat).
Variables (e_to_c c_to_e xdofs : list (list nat)).
Definition dofs_at (c : nat) (ds row : list nat) : Prop :=
  exists x, nth_error xdofs c = Some x /\ Forall2 (fun d y => nth_error x d = Some y) ds row.
Definition geometry_dofs (e : nat) (row : list nat) : Prop :=
  if dim =? tdim then dofs_at e (closure tdim 0) row
  else exists c rest ents l, nth_error e_to_c e = Some (c :: rest) /\ nth_error c_to_e c = Some ents /\
         nth_error ents l = Some e /\ dofs_at c (perm c l (closure dim l)) row.
End GeometryDofs.

(** The data of a rank: entities have vertices, a cell that knows them, and geometry dofs. *)
Section Input.
Variables (emap vmap xmap : imap) (e_to_v : list (list nat)) (entities : list nat).
Variables (tdim dim : nat) (closure : nat -> nat -> list nat) (perm : nat -> nat -> list nat -> list nat) (e_to_c c_to_e xdofs : list (list nat)).
Record rank_input : Prop := {
  ri_vertices : length e_to_v = size_local emap + num_ghosts emap;
  ri_vertex : forall e vs v, nth_error e_to_v e = Some vs -> In v vs -> v < size_local vmap + num_ghosts vmap;
  ri_chosen : forall e, In e entities -> e < size_local emap + num_ghosts emap;
  ri_once : forall c ents, nth_error c_to_e c = Some ents -> NoDup ents;
  ri_dofs : forall e, In e entities -> exists row, geometry_dofs tdim dim closure perm e_to_c c_to_e xdofs e row /\
    forall d, In d row -> d < size_local xmap + num_ghosts xmap
}.
End Input.
