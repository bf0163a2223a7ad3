(** Property C66. *)
From Verif Require Import Base BaseProofs World IndexMap IndexMapSpec SubMap SubMesh SubMeshSpec SubMeshProofs.

(** C66.  A sub-mesh of entities [entities r] of dimension [dim] (as marked on every rank; an
    owner marks the entities that other ranks mark).  The specification is in SubMeshSpec.v:
    the cells, the vertices and the geometry dofs of the sub-mesh are the chosen entities, their
    vertices and their geometry dofs, each with one number on all ranks ([sub_numbering]); cells
    have the vertices and geometry dofs of the entity in the same order ([same_rows]); points and
    input indices are the parent's ([selected]). *)
Theorem C66_submesh :
  forall P emaps vmaps xmaps e_to_v entities tdim dim closure bad perm e_to_c c_to_e xdofs,
  maps_ok P emaps -> maps_ok P vmaps -> maps_ok P xmaps ->
  (forall r, r < P -> rank_input (emaps r) (vmaps r) (xmaps r) (e_to_v r) (entities r) tdim dim closure (perm r) (e_to_c r) (c_to_e r) (xdofs r)) ->
  (forall r q e g, r < P -> q < P -> In e (entities q) -> local_to_global (emaps q) e = Some g -> owns (emaps r) g ->
     exists h, In h (entities r) /\ local_to_global (emaps r) h = Some g) ->
  bad && (dim =? 2) = false ->
  forall A (x : nat -> list A) (igi : nat -> list nat),
  (forall r, r < P -> length (x r) = size_local (xmaps r) + num_ghosts (xmaps r) /\ length (igi r) = size_local (xmaps r) + num_ghosts (xmaps r)) ->
  exists sub_e s2e sub_v s2v conn sub_x s2x dofs x' igi',
    (forall r, r < P -> create_submesh P emaps vmaps xmaps e_to_v entities tdim closure bad perm e_to_c c_to_e xdofs dim x igi r =
       Some (((sub_e r, sub_v r, conn r), (s2e r, s2v r)), ((sub_x r, dofs r, x' r, igi' r), s2x r))) /\
    sub_numbering P emaps (fun r e => In e (entities r)) sub_e s2e /\
    sub_numbering P vmaps (fun r v => exists e vs, In e (entities r) /\ nth_error (e_to_v r) e = Some vs /\ In v vs) sub_v s2v /\
    sub_numbering P xmaps (fun r d => exists e row, In e (entities r) /\
      geometry_dofs tdim dim closure (perm r) (e_to_c r) (c_to_e r) (xdofs r) e row /\ In d row) sub_x s2x /\
    forall r, r < P ->
      same_rows (s2v r) (s2e r) (fun e vs => nth_error (e_to_v r) e = Some vs) (conn r) /\
      same_rows (s2x r) (s2e r) (geometry_dofs tdim dim closure (perm r) (e_to_c r) (c_to_e r) (xdofs r)) (dofs r) /\
      selected (s2x r) (x r) (x' r) /\ selected (s2x r) (igi r) (igi' r).
Proof. exact @submesh_ok. Qed.
Print Assumptions C66_submesh.

(** A cell of the sub-mesh that two ranks have ([j] on rank [r], [k] on rank [q]) has the same
    vertices, the same geometry dofs and the same points on both, if this holds in the parent. *)
Theorem C66_shared_cells :
  forall P emaps vmaps xmaps e_to_v entities tdim dim closure bad perm e_to_c c_to_e xdofs A (x : nat -> list A) (igi : nat -> list nat),
  maps_ok P emaps -> maps_ok P vmaps -> maps_ok P xmaps ->
  (forall r, r < P -> rank_input (emaps r) (vmaps r) (xmaps r) (e_to_v r) (entities r) tdim dim closure (perm r) (e_to_c r) (c_to_e r) (xdofs r)) ->
  (forall r q e g, r < P -> q < P -> In e (entities q) -> local_to_global (emaps q) e = Some g -> owns (emaps r) g ->
     exists h, In h (entities r) /\ local_to_global (emaps r) h = Some g) ->
  bad && (dim =? 2) = false ->
  (forall r, r < P -> length (x r) = size_local (xmaps r) + num_ghosts (xmaps r) /\ length (igi r) = size_local (xmaps r) + num_ghosts (xmaps r)) ->
  (* in the parent mesh *)
  (forall r q e f g vs ws, r < P -> q < P -> local_to_global (emaps r) e = Some g -> local_to_global (emaps q) f = Some g ->
     nth_error (e_to_v r) e = Some vs -> nth_error (e_to_v q) f = Some ws -> map (local_to_global (vmaps r)) vs = map (local_to_global (vmaps q)) ws) ->
  (forall r q e f g vs ws, r < P -> q < P -> local_to_global (emaps r) e = Some g -> local_to_global (emaps q) f = Some g ->
     geometry_dofs tdim dim closure (perm r) (e_to_c r) (c_to_e r) (xdofs r) e vs ->
     geometry_dofs tdim dim closure (perm q) (e_to_c q) (c_to_e q) (xdofs q) f ws ->
     map (local_to_global (xmaps r)) vs = map (local_to_global (xmaps q)) ws) ->
  (forall r q d d' g, r < P -> q < P -> local_to_global (xmaps r) d = Some g -> local_to_global (xmaps q) d' = Some g -> nth_error (x r) d = nth_error (x q) d') ->
  (* in the sub-mesh *)
  forall r q sub_e sub_v conn ms sub_x dofs x' igi' s2x sub_e' sub_v' conn' ms' sub_x' dofs' x'' igi'' s2x' j k n vs vs' ds ds', r < P -> q < P ->
    create_submesh P emaps vmaps xmaps e_to_v entities tdim closure bad perm e_to_c c_to_e xdofs dim x igi r = Some (((sub_e, sub_v, conn), ms), ((sub_x, dofs, x', igi'), s2x)) ->
    create_submesh P emaps vmaps xmaps e_to_v entities tdim closure bad perm e_to_c c_to_e xdofs dim x igi q = Some (((sub_e', sub_v', conn'), ms'), ((sub_x', dofs', x'', igi''), s2x')) ->
    local_to_global sub_e j = Some n -> local_to_global sub_e' k = Some n ->
    nth_error conn j = Some vs -> nth_error conn' k = Some vs' -> nth_error dofs j = Some ds -> nth_error dofs' k = Some ds' ->
    map (local_to_global sub_v) vs = map (local_to_global sub_v') vs' /\
    map (local_to_global sub_x) ds = map (local_to_global sub_x') ds' /\
    map (nth_error x') ds = map (nth_error x'') ds'.
Proof. exact @submesh_shared. Qed.
Print Assumptions C66_shared_cells.

(** The call fails on every rank if an entity is chosen by a rank and not by its owner. *)
Theorem C66_owner_must_choose :
  forall P emaps vmaps xmaps e_to_v entities tdim closure bad perm e_to_c c_to_e xdofs dim A (x : nat -> list A) igi r q e g r',
  maps_ok P emaps -> (forall r e, r < P -> In e (entities r) -> e < size_local (emaps r) + num_ghosts (emaps r)) ->
  r < P -> q < P -> In e (entities q) -> local_to_global (emaps q) e = Some g -> owns (emaps r) g ->
  (forall h, In h (entities r) -> local_to_global (emaps r) h <> Some g) ->
  create_submesh P emaps vmaps xmaps e_to_v entities tdim closure bad perm e_to_c c_to_e xdofs dim x igi r' = None.
Proof. exact @submesh_refused. Qed.
Print Assumptions C66_owner_must_choose.

(** No sub-mesh of faces of prisms or pyramids. *)
Theorem C66_prism_facets :
  forall P emaps vmaps xmaps e_to_v entities tdim closure perm e_to_c c_to_e xdofs A (x : nat -> list A) igi r,
  create_submesh P emaps vmaps xmaps e_to_v entities tdim closure true perm e_to_c c_to_e xdofs 2 x igi r = None.
Proof. exact @submesh_facets. Qed.
Print Assumptions C66_prism_facets.

(** ** Example: triangles 0 1 2 (rank 0) and 1 2 3 (rank 1); the edge 1 2 and the edge 2 3. *)
Definition sx_v (r : nat) : imap := match r with 0 => mkIM 0 3 4 [] [] [] [1] | 1 => mkIM 3 4 4 [1; 2] [0; 0] [0] [] | _ => mkIM 0 0 0 [] [] [] [] end.
Definition sx_e (r : nat) : imap := match r with 0 => mkIM 0 3 5 [] [] [] [1] | 1 => mkIM 3 5 5 [0] [0] [0] [] | _ => mkIM 0 0 0 [] [] [] [] end.
Definition sx_ev (r : nat) : list (list nat) := match r with 0 => [[1; 2]; [0; 2]; [0; 1]] | _ => [[2; 0]; [1; 0]; [1; 2]] end.
Definition sx_chosen (r : nat) : list nat := match r with 0 => [0] | _ => [2; 0] end.
Definition sx_closure (d l : nat) : list nat := match d with 1 => nth l [[1; 2]; [0; 2]; [0; 1]] [] | _ => [0; 1; 2] end.
Definition sx_perm (r c l : nat) (ds : list nat) : list nat := ds.
Definition sx_ec (r : nat) : list (list nat) := [[0]; [0]; [0]].
Definition sx_ce (r : nat) : list (list nat) := [[0; 1; 2]].
Definition sx_xdofs (r : nat) : list (list nat) := match r with 0 => [[0; 1; 2]] | _ => [[1; 2; 0]] end.
Definition sx_x (r : nat) : list (nat * nat) := match r with 0 => [(0, 0); (1, 0); (0, 1)] | _ => [(1, 1); (1, 0); (0, 1)] end.
Definition sx_igi (r : nat) : list nat := match r with 0 => [10; 11; 12] | _ => [13; 11; 12] end.

Example C66_computed :
  map (create_submesh 2 sx_e sx_v sx_v sx_ev sx_chosen 2 sx_closure false sx_perm sx_ec sx_ce sx_xdofs 1 sx_x sx_igi) [0; 1] =
  [Some (((mkIM 0 1 2 [] [] [] [1], mkIM 0 2 3 [] [] [] [1], [[0; 1]]), ([0], [1; 2])),
         ((mkIM 0 2 3 [] [] [] [1], [[0; 1]], [(1, 0); (0, 1)], [11; 12]), [1; 2]));
   Some (((mkIM 1 2 2 [0] [0] [0] [], mkIM 2 3 3 [0; 1] [0; 0] [0] [], [[2; 0]; [1; 2]]), ([0; 2], [0; 1; 2])),
         ((mkIM 2 3 3 [0; 1] [0; 0] [0] [], [[2; 0]; [1; 2]], [(1, 1); (1, 0); (0, 1)], [13; 11; 12]), [0; 1; 2]))].
Proof. vm_compute. reflexivity. Qed.

Ltac sx_maps :=
  constructor;
  [ reflexivity
  | intros [|r] H; [reflexivity|lia]
  | intros [|[|r]] H; cbn; lia
  | intros [|[|r]] H; reflexivity
  | intros [|[|r]] H; [| |lia]; cbn; repeat first [apply NoDup_nil | apply NoDup_cons; [cbn; lia|]]
  | intros [|[|r]] [|[|k]] g o H Hg Ho; cbn in Hg, Ho; try (destruct k; discriminate); try discriminate; try lia; injection Hg as <-; injection Ho as <-; unfold owns; cbn; lia
  | intros [|[|r]] H; [| |lia]; cbn; (split; [repeat constructor|]; intros s; tauto)
  | intros [|[|r]] H; [| |lia]; cbn; (split; [repeat constructor|]; intros s; split; [cbn; intros Hs; try contradiction; destruct Hs as [<-|[]]; cbn; lia|intros [Hs Hin]; destruct s as [|[|s]]; cbn in Hin; lia]) ].
Example C66_example_maps : maps_ok 2 sx_e /\ maps_ok 2 sx_v.
Proof. split; sx_maps. Qed.
Example C66_example_input r : r < 2 ->
  rank_input (sx_e r) (sx_v r) (sx_v r) (sx_ev r) (sx_chosen r) 2 1 sx_closure (sx_perm r) (sx_ec r) (sx_ce r) (sx_xdofs r).
Proof.
  intro Hr. assert (E : r = 0 \/ r = 1) by lia. constructor.
  - destruct E; subst; reflexivity.
  - intros e vs v He Hv. apply nth_error_In in He. destruct E; subst; cbn in He |- *; repeat destruct He as [<-|He]; try contradiction; cbn in Hv; lia.
  - intros e He. destruct E; subst; cbn in He |- *; lia.
  - intros [|c] ents H; [|destruct c; discriminate]. injection H as <-. repeat first [apply NoDup_nil | apply NoDup_cons; [cbn; lia|]].
  - intros e He. destruct E; subst; cbn in He; repeat destruct He as [<-|He]; try contradiction.
    + exists [1; 2]. split; [|cbn; lia]. exists 0, [], [0; 1; 2], 0. do 3 (split; [reflexivity|]). exists [0; 1; 2]. split; [reflexivity|]. repeat constructor.
    + exists [1; 2]. split; [|cbn; lia]. exists 0, [], [0; 1; 2], 2. do 3 (split; [reflexivity|]). exists [1; 2; 0]. split; [reflexivity|]. repeat constructor.
    + exists [2; 0]. split; [|cbn; lia]. exists 0, [], [0; 1; 2], 0. do 3 (split; [reflexivity|]). exists [1; 2; 0]. split; [reflexivity|]. repeat constructor.
Qed.
Example C66_example_owner r q e g : r < 2 -> q < 2 -> In e (sx_chosen q) -> local_to_global (sx_e q) e = Some g -> owns (sx_e r) g ->
  exists h, In h (sx_chosen r) /\ local_to_global (sx_e r) h = Some g.
Proof.
  intros Hr Hq He Hg Ho. destruct r as [|[|r]], q as [|[|q]]; try lia; cbn in He; repeat destruct He as [<-|He]; try contradiction; cbn in Hg; injection Hg as <-;
    unfold owns in Ho; cbn in Ho; try lia; [exists 0|exists 0|exists 0]; (split; [cbn; auto|reflexivity]).
Qed.
Example C66_example_lengths r : r < 2 ->
  length (sx_x r) = size_local (sx_v r) + num_ghosts (sx_v r) /\ length (sx_igi r) = size_local (sx_v r) + num_ghosts (sx_v r).
Proof. intro Hr. destruct r as [|[|r]]; [| |lia]; split; reflexivity. Qed.
Example C66_example_shared r q e f g vs ws : r < 2 -> q < 2 -> local_to_global (sx_e r) e = Some g -> local_to_global (sx_e q) f = Some g ->
  nth_error (sx_ev r) e = Some vs -> nth_error (sx_ev q) f = Some ws -> map (local_to_global (sx_v r)) vs = map (local_to_global (sx_v q)) ws.
Proof.
  intros Hr Hq He Hf Hv Hw. destruct r as [|[|r]], q as [|[|q]]; try lia;
    destruct e as [|[|[|e]]]; try (cbn in Hv; destruct e; discriminate); destruct f as [|[|[|f]]]; try (cbn in Hw; destruct f; discriminate);
    cbn in He, Hf; try congruence; injection Hv as <-; injection Hw as <-; reflexivity.
Qed.
Lemma sx_gdofs r e vs : r < 2 -> geometry_dofs 2 1 sx_closure (sx_perm r) (sx_ec r) (sx_ce r) (sx_xdofs r) e vs -> nth_error (sx_ev r) e = Some vs.
Proof.
  intros Hr (c & rest & ents & l & H1 & H2 & H3 & x & H4 & F). destruct c as [|c]; [|destruct c; discriminate]. injection H2 as <-.
  assert (G : l = e) by (destruct l as [|[|[|l]]]; cbn in H3; try (destruct l; discriminate); congruence). subst l.
  destruct e as [|[|[|e]]]; [| | |destruct e; discriminate H3]; (destruct r as [|[|r]]; [| |lia]); injection H4 as <-;
    inversion F as [|? ? ? ? A1 F1]; subst; inversion F1 as [|? ? ? ? A2 F2]; subst; inversion F2; subst; cbn in A1, A2; injection A1 as <-; injection A2 as <-; reflexivity.
Qed.
Example C66_example_dofs r q e f g vs ws : r < 2 -> q < 2 -> local_to_global (sx_e r) e = Some g -> local_to_global (sx_e q) f = Some g ->
  geometry_dofs 2 1 sx_closure (sx_perm r) (sx_ec r) (sx_ce r) (sx_xdofs r) e vs ->
  geometry_dofs 2 1 sx_closure (sx_perm q) (sx_ec q) (sx_ce q) (sx_xdofs q) f ws -> map (local_to_global (sx_v r)) vs = map (local_to_global (sx_v q)) ws.
Proof. intros Hr Hq He Hf Hv Hw. apply (C66_example_shared r q e f g); auto; apply sx_gdofs; auto. Qed.
Example C66_example_points r q d d' g : r < 2 -> q < 2 -> local_to_global (sx_v r) d = Some g -> local_to_global (sx_v q) d' = Some g ->
  nth_error (sx_x r) d = nth_error (sx_x q) d'.
Proof.
  intros Hr Hq Hd Hd'. destruct r as [|[|r]], q as [|[|q]]; try lia;
    destruct d as [|[|[|d]]], d' as [|[|[|d']]]; cbn in Hd, Hd' |- *; try congruence; try (destruct d; discriminate); try (destruct d'; discriminate); try reflexivity.
Qed.
(** Rank 1 chooses the shared edge and rank 0, its owner, does not. *)
Example C66_refused_example :
  map (create_submesh 2 sx_e sx_v sx_v sx_ev (fun r => match r with 0 => [1] | _ => [2; 0] end) 2 sx_closure false sx_perm sx_ec sx_ce sx_xdofs 1 sx_x sx_igi) [0; 1]
  = [None; None].
Proof. vm_compute. reflexivity. Qed.
