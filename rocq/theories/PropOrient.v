(** C36, C37: orientation of edges and faces.  [build_entity] gives the vertex list that
    [compute_entities] stores for an entity of a cell; [compute_entity_permutations] gives
    the reflections and rotations of the entities of every cell. *)
From Coq Require Import NArith.
From Verif Require Import Base Algo CellTypes Orient OrientSpec OrientProofs.
Open Scope nat_scope.

(** A mesh of two tetrahedra with a common face, with scrambled global vertex indices *)
Definition ex_l2g (v : nat) : option Z := nth_error [7; 3; 9; 1; 4]%Z v.
Definition ex_topo : topo :=
  {| t_num_types := 1; t_type := Tetrahedron; t_l2g := ex_l2g;
     t_cv := [[0; 1; 2; 3]; [4; 2; 1; 3]];
     t_ce := [[0; 1; 2; 3; 4; 5]; [1; 0; 2; 6; 7; 8]];
     t_ev := [[3; 2]; [3; 1]; [1; 2]; [3; 0]; [0; 2]; [1; 0]; [3; 4]; [1; 4]; [4; 2]];
     t_face_types := [Triangle]; t_cf := [[[0; 1; 2; 3]; [0; 4; 5; 6]]];
     t_fv := [[[3; 1; 2]; [3; 0; 2]; [3; 1; 0]; [1; 0; 2]; [3; 1; 4]; [3; 4; 2]; [1; 4; 2]]] |}.

(** C36: the list stored for an edge or triangle is its vertices in increasing order of the
    global index. *)
Theorem C36_simplex : forall l2g type ev vertices l g,
  (type = Interval \/ type = Triangle) -> length ev = num_cell_vertices type ->
  omap (nth_error vertices) ev = Some l -> omap l2g l = Some g -> NoDup g ->
  exists el key, build_entity l2g type ev vertices = Some (el, key) /\ Permutation l el /\ increasing l2g el /\ key = isort Nat.leb l.
Proof. exact simplex_spec. Qed.
Print Assumptions C36_simplex.

(** C36: the list stored for a quadrilateral starts with its lowest vertex, ends with the
    opposite one and has the other two in increasing order. *)
Theorem C36_quadrilateral : forall l2g ev vertices l g,
  length ev = 4 -> omap (nth_error vertices) ev = Some l -> omap l2g l = Some g -> NoDup g ->
  exists e0 e1 e2 e3 key, build_entity l2g Quadrilateral ev vertices = Some ([e0; e1; e2; e3], key) /\ same_quad l [e0; e1; e2; e3] /\
    (exists g0 g1 g2 g3, omap l2g [e0; e1; e2; e3] = Some [g0; g1; g2; g3] /\ g0 < g1 /\ g0 < g2 /\ g0 < g3 /\ g1 < g2)%Z /\
    key = isort Nat.leb [e0; e1; e2; e3].
Proof. exact quad_spec. Qed.
Print Assumptions C36_quadrilateral.

(** C36: two cells of any ranks, listing the vertices of one entity each in its own way,
    store the same list. *)
Theorem C36_cell_independent : forall type l2g ev vertices l g el key l2g' ev' vertices' l' g' el' key',
  (type = Interval \/ type = Triangle \/ type = Quadrilateral) ->
  length ev = num_cell_vertices type -> length ev' = num_cell_vertices type ->
  omap (nth_error vertices) ev = Some l -> omap l2g l = Some g -> NoDup g ->
  omap (nth_error vertices') ev' = Some l' -> omap l2g' l' = Some g' ->
  same_entity type g g' ->
  build_entity l2g type ev vertices = Some (el, key) -> build_entity l2g' type ev' vertices' = Some (el', key') ->
  omap l2g el = omap l2g' el'.
Proof. exact cell_independent. Qed.
Print Assumptions C36_cell_independent.

(** A face of two hexahedra: the second cell sees it rotated. *)
Example C36_example :
  let l2g := nth_error [10; 20; 5; 40; 50; 60; 70; 80; 90; 15; 25; 35]%Z in
  let c1 := [0; 1; 2; 3; 4; 5; 6; 7] in let c2 := [3; 2; 9; 8; 1; 0; 10; 11] in
  let g1 := [10; 20; 5; 40]%Z in let g2 := [40; 5; 20; 10]%Z in
  omap l2g [0; 1; 2; 3] = Some g1 /\ omap l2g [3; 2; 1; 0] = Some g2 /\ same_quad g1 g2 /\
  build_entity l2g Quadrilateral [0; 1; 2; 3] c1 = Some ([2; 0; 3; 1], [0; 1; 2; 3]) /\
  build_entity l2g Quadrilateral [0; 1; 4; 5] c2 = Some ([2; 0; 3; 1], [0; 1; 2; 3]).
Proof.
  cbv zeta. do 2 (split; [vm_compute; reflexivity|]). split; [|split; vm_compute; reflexivity].
  split; [apply (Permutation_rev [10; 20; 5; 40]%Z)|]. intros x y. cbn. tauto.
Qed.

(** C37: for cells of dimension two and three, any number of threads and any interleaving,
    the reflection of an edge and the reflection and rotations of a face, read back from the
    packed word of the cell, turn the cell's view of the entity into the stored one.  The
    facet array has the same numbers. *)
Theorem C37_entity_permutations : forall T threads sched,
  topo_ok (2 ^ 31) T -> 1 < cell_dim (t_type T) -> 0 < threads -> (forall l, Permutation (sched l) l) ->
  let ne := length (nth 1 (topology (t_type T)) []) in
  let nf := num_faces (t_type T) in
  let stored cv type d i := option_map fst (build_entity (t_l2g T) type (sub_vertices (t_type T) d i) cv) in
  let view (g : list Z) d i := map (fun j => nth j g 0%Z) (sub_vertices (t_type T) d i) in
  exists facets info, compute_entity_permutations T threads sched = Some (facets, info) /\
    length info = length (t_cv T) /\
    forall c cv g, nth_error (t_cv T) c = Some cv -> omap (t_l2g T) cv = Some g ->
    exists x, nth_error info c = Some x /\
      (forall e, e < ne -> exists el, stored cv Interval 1 e = Some el /\
         omap (t_l2g T) el = Some (turn (edge_reflect x nf e) 0 (view g 1 e))) /\
      (forall f, f < nf -> In (cell_facet_type (t_type T) f) (t_face_types T) ->
         exists el, stored cv (cell_facet_type (t_type T) f) 2 f = Some el /\
           omap (t_l2g T) el = Some (turn (face_reflect x f) (face_rotations x f) (view g 2 f))) /\
      (forall f, f < nf -> nth_error facets (c * nf + f) = Some (N.b2n (face_reflect x f) + 2 * N.of_nat (face_rotations x f))%N) /\
      (cell_dim (t_type T) = 2 -> forall e, e < ne -> nth_error facets (c * ne + e) = Some (N.b2n (edge_reflect x 0 e))).
Proof. exact perms_spec. Qed.
Print Assumptions C37_entity_permutations.

Ltac topo_tac :=
  split;
  [ apply le_n
  | intros c cv H; destruct c as [|[|c]]; cbn in H; [injection H as <-|injection H as <-|destruct c; discriminate];
      (eexists; split; [vm_compute; reflexivity|]; split; [reflexivity|]; split;
       [repeat first [apply NoDup_nil | apply NoDup_cons; [cbn; lia|]]|repeat constructor; lia])
  | intros _ c cv H; destruct c as [|[|c]]; cbn in H; [injection H as <-|injection H as <-|destruct c; discriminate];
      (eexists; split; [reflexivity|]; intros e He; cbn in He;
       do 6 (destruct e as [|e]; [do 3 eexists; split; [reflexivity|]; split; [reflexivity|]; vm_compute; reflexivity|]); lia)
  | split; [repeat constructor; cbn; tauto|]; intros ft [<-|[]]; now left
  | intros _ i ft H; destruct i as [|i]; [|destruct i; discriminate]; injection H as <-;
    do 2 eexists; split; [reflexivity|]; split; [reflexivity|]; intros c cv H;
    destruct c as [|[|c]]; cbn in H; [injection H as <-|injection H as <-|destruct c; discriminate];
      (eexists; split; [reflexivity|]; split; [reflexivity|]; intros j f id Hj Hid;
       do 4 (destruct j as [|j]; [vm_compute in Hj, Hid; injection Hj as <-; injection Hid as <-; do 2 eexists; split; [reflexivity|]; vm_compute; reflexivity|]);
       destruct j; discriminate) ].
Lemma ex_topo_ok : topo_ok (2 ^ 31) ex_topo.
Proof. topo_tac. Qed.
Example C37_example : exists facets info, compute_entity_permutations ex_topo 3 (fun l => rev l) = Some (facets, info) /\
  length info = 2 /\ firstn 4 facets = [2; 2; 5; 3]%N /\ skipn 4 facets = [5; 5; 2; 2]%N.
Proof. do 2 eexists. split; [vm_compute; reflexivity|]. vm_compute. auto. Qed.

(** C37 fails for larger global indices: [compute_triangle_rot_reflect] narrows the indices
    to [int].  Two tetrahedra whose common face has vertices 1 and 2^32 + 1 turn it into
    different lists. *)
Definition wide_topo : topo :=
  {| t_num_types := 1; t_type := Tetrahedron; t_l2g := nth_error [0; 1; 4294967297; 5; 6]%Z;
     t_cv := [[0; 1; 2; 3]; [1; 2; 0; 4]];
     t_ce := [[0; 1; 2; 3; 4; 5]; [6; 7; 4; 8; 5; 2]];
     t_ev := [[3; 2]; [1; 3]; [1; 2]; [0; 3]; [0; 2]; [0; 1]; [0; 4]; [4; 2]; [1; 4]];
     t_face_types := [Triangle]; t_cf := [[[0; 1; 2; 3]; [4; 5; 6; 3]]];
     t_fv := [[[1; 3; 2]; [0; 3; 2]; [0; 1; 3]; [0; 1; 2]; [0; 4; 2]; [0; 1; 4]; [1; 4; 2]]] |}.
Theorem C37_wide_indices_refuted :
  let T := wide_topo in
  topo_ok (2 ^ 63) T /\
  exists facets x y g g', compute_entity_permutations T 1 (fun l => l) = Some (facets, [x; y]) /\
    (* face 3 of both cells is the same row of the face table *)
    nth_error (nth 0 (nth 0 (t_cf T) []) []) 3 = nth_error (nth 1 (nth 0 (t_cf T) []) []) 3 /\
    omap (t_l2g T) (nth 0 (t_cv T) []) = Some g /\ omap (t_l2g T) (nth 1 (t_cv T) []) = Some g' /\
    turn (face_reflect x 3) (face_rotations x 3) (map (fun j => nth j g 0%Z) (sub_vertices Tetrahedron 2 3)) <>
    turn (face_reflect y 3) (face_rotations y 3) (map (fun j => nth j g' 0%Z) (sub_vertices Tetrahedron 2 3)).
Proof.
  cbv zeta. split; [topo_tac|]. do 5 eexists. split; [vm_compute; reflexivity|]. split; [reflexivity|].
  split; [vm_compute; reflexivity|]. split; [vm_compute; reflexivity|]. vm_compute. discriminate.
Qed.
Print Assumptions C37_wide_indices_refuted.
