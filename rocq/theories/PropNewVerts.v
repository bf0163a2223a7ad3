(** Property C79. *)
From Verif Require Import Base BaseProofs Nbx World IndexMap IndexMapSpec ImSharedProofs PatternMats LocateSpec Marking MarkingSpec MarkingLoop NewVerts NewVertsSpec NewVertsProofs NewVertsGeom.
From Coq Require Import Reals Lra.
Open Scope nat_scope.

(** C79: on every rank every marked edge, owned or not, is linked to one number, that of the
    vertex that the owner of the edge made on it, and every other edge to none. *)
Theorem C79_numbers :
  forall P nbx emaps vmaps marks, nbx_oracle P nbx -> maps_ok P emaps -> maps_ok P vmaps -> marks_ok P emaps marks ->
  exists data offsets, forall r, r < P ->
    new_vertex_map P nbx emaps vmaps marks r = Some (data r, offsets r) /\ length (offsets r) = S (edge_count (emaps r)) /\
    forall e g o, at_global (emaps r) e g -> o < P -> owns (emaps o) g ->
      slice_at (data r) (offsets r) e = Some (if is_marked marks r e then [new_number emaps vmaps marks o (g - im_lo (emaps o))] else []).
Proof. exact new_vertices. Qed.
Print Assumptions C79_numbers.

(** The numbers of the old vertices and of the vertices on the marked edges of all ranks are
    the numbers from zero to the number of vertices, each once. *)
Theorem C79_numbering :
  forall P emaps vmaps marks,
  let total := lsum (map (new_size emaps vmaps marks) (seq 0 P)) in
  (forall n, n < total -> exists o, o < P /\
     ((exists i, i < size_local (vmaps o) /\ n = old_number emaps vmaps marks o i) \/
      exists e, e < size_local (emaps o) /\ is_marked marks o e = true /\ n = new_number emaps vmaps marks o e)) /\
  (forall o i, o < P -> i < size_local (vmaps o) -> old_number emaps vmaps marks o i < total) /\
  (forall o e, o < P -> e < size_local (emaps o) -> is_marked marks o e = true -> new_number emaps vmaps marks o e < total) /\
  (forall o o' i i', i < size_local (vmaps o) -> i' < size_local (vmaps o') ->
     old_number emaps vmaps marks o i = old_number emaps vmaps marks o' i' -> o = o' /\ i = i') /\
  (forall o o' e e', e < size_local (emaps o) -> is_marked marks o e = true -> e' < size_local (emaps o') -> is_marked marks o' e' = true ->
     new_number emaps vmaps marks o e = new_number emaps vmaps marks o' e' -> o = o' /\ e = e') /\
  (forall o o' i e, i < size_local (vmaps o) -> e < size_local (emaps o') -> is_marked marks o' e = true ->
     old_number emaps vmaps marks o i <> new_number emaps vmaps marks o' e).
Proof. exact numbering. Qed.
Print Assumptions C79_numbering.

(** The marks that the refinement of triangles and tetrahedra computes (C54) can be used. *)
Theorem C79_after_marking :
  forall P nbx maps f2e long edges, nbx_oracle P nbx -> maps_ok P maps ->
  (forall r, r < P -> faces_ok (maps r) (f2e r) (long r)) ->
  (forall r e, r < P -> chosen maps edges r e -> e < edge_count (maps r)) ->
  (Z.of_nat (lsum (map (fun r => length (f2e r)) (seq 0 P))) < 2147483648)%Z ->
  forall fuel, lsum (map (fun r => edge_count (maps r)) (seq 0 P)) < fuel ->
  exists W, marked_edges P nbx maps f2e long edges fuel = Some W /\ marks_ok P maps (fun r => nth r W []).
Proof.
  intros P nbx maps f2e long edges H1 H2 H3 H4 H5 fuel H6. destruct (marking_statement P nbx maps f2e long edges H1 H2 H3 H4 H5 fuel H6) as (W & E & L & Hl & _ & _ & Ha & _).
  exists W. split; [exact E|]. split.
  - intros r Hr. apply Hl. apply nth_error_nth'. lia.
  - assert (Hn : forall r e, r < P -> marked W r e <-> nth_error (nth r W []) e = Some true).
    { intros r e Hr. unfold marked. rewrite (nth_error_nth' W [] (n:=r)) by lia. split; [intros (m & Em & K); now injection Em as <-|intro K; eauto]. }
    intros r q e e' g Hr Hq A B K. apply (Hn q e' Hq). apply (Ha r q e e' g Hr Hq A B). now apply (Hn r e Hr).
Qed.
Print Assumptions C79_after_marking.

(** Refinement of intervals: a cell is marked if some rank chose it; every owned cell gives
    itself, or its two halves with the new vertex between the vertices of the cell, in the
    order of the cells, and the parents are listed. *)
Theorem C79_interval :
  forall P nbx cmaps vmaps c_to_v cells, nbx_oracle P nbx -> maps_ok P cmaps -> maps_ok P vmaps ->
  (forall r c, r < P -> chosen cmaps cells r c -> c < edge_count (cmaps r)) ->
  (forall r, r < P -> size_local (cmaps r) <= length (c_to_v r)) ->
  (forall r vs, r < P -> In vs (c_to_v r) -> length vs = 2 /\ forall v, In v vs -> v < size_local (vmaps r) + num_ghosts (vmaps r)) ->
  exists marks topology parents, marks_ok P cmaps marks /\
    (forall r c, r < P -> is_marked marks r c = true <->
       exists q c' g, q < P /\ chosen cmaps cells q c' /\ at_global (cmaps q) c' g /\ at_global (cmaps r) c g) /\
    forall r, r < P ->
      interval_refinement P nbx cmaps vmaps c_to_v cells false r = Some (topology r, parents r) /\
      exists children, topology r = concat children /\ length children = size_local (cmaps r) /\
        parents r = concat (map (fun '(c, ch) => map (fun _ => c) ch) (combine (seq 0 (size_local (cmaps r))) children)) /\
        forall c v0 v1 a b, c < size_local (cmaps r) -> nth_error (c_to_v r) c = Some [v0; v1] ->
          vertex_number P cmaps vmaps marks r v0 a -> vertex_number P cmaps vmaps marks r v1 b ->
          nth_error children c = Some (halves (is_marked marks r c) a b (new_number cmaps vmaps marks r c)).
Proof.
  intros P nbx cmaps vmaps c_to_v cells H1 H2 H3 H4 H5 H6. destruct (interval_ok P nbx cmaps vmaps c_to_v cells H1 H2 H3 H4 H5 H6) as (T & Q & H).
  exists (interval_marker P nbx cmaps cells), T, Q. split; [exact (interval_marks_agree P nbx cmaps cells H1 H2 H4)|]. split.
  - intros r c Hr. exact (proj2 (proj2 (interval_marks_ok P nbx cmaps cells H1 H2 H4 r Hr)) c).
  - intros r Hr. destruct (H r Hr) as (E & ch & A & B & C & D). split; [exact E|]. exists ch. auto.
Qed.
Print Assumptions C79_interval.

(** The coordinates: the rows of rank [r] are in the order of the numbers of its vertices; an
    old vertex stays where it is, and a new one is at the mean of the nodes of its edge. *)
Theorem C79_coordinates :
  forall xdofs c_to_v vertex_pos x gdim edge_nodes P emaps vmaps marks r, r < P -> marks_ok P emaps marks ->
  length xdofs = length c_to_v -> gdim <= 3 ->
  (forall c vs ds i v, nth_error c_to_v c = Some vs -> nth_error xdofs c = Some ds -> nth_error vs i = Some v ->
     v < size_local (vmaps r) + num_ghosts (vmaps r) /\ exists p d, nth_error vertex_pos i = Some p /\ nth_error ds p = Some d /\ 3 * d + 3 <= length x) ->
  (forall v d d', vertex_node xdofs c_to_v vertex_pos v d -> vertex_node xdofs c_to_v vertex_pos v d' -> d = d') ->
  (forall v, v < size_local (vmaps r) -> exists d, vertex_node xdofs c_to_v vertex_pos v d) ->
  (forall e, e < size_local (emaps r) -> exists nodes, edge_nodes e = Some nodes /\ forall d, In d nodes -> 3 * d + 3 <= length x) ->
  exists rows, new_vertex_coords xdofs c_to_v vertex_pos x gdim edge_nodes emaps vmaps marks r = Some rows /\
    length rows = new_size emaps vmaps marks r /\
    (forall v d n, v < size_local (vmaps r) -> vertex_node xdofs c_to_v vertex_pos v d ->
       n + old_number emaps vmaps marks r 0 = old_number emaps vmaps marks r v ->
       nth_error rows n = Some (map (xcoord x d) (seq 0 gdim))) /\
    (forall e nodes n, e < size_local (emaps r) -> is_marked marks r e = true -> edge_nodes e = Some nodes ->
       n + old_number emaps vmaps marks r 0 = new_number emaps vmaps marks r e ->
       nth_error rows n = Some (map (fun j => mean (map (fun d => xcoord x d j) nodes)) (seq 0 gdim))).
Proof.
  intros xdofs c_to_v vertex_pos x gdim edge_nodes P emaps vmaps marks r Hr H1 H2 H3 H4 H5 H6 H7.
  destruct (coordinates_ok xdofs c_to_v vertex_pos x gdim edge_nodes P emaps vmaps marks r Hr H1 H2 H3 H4 H5 H6 H7) as (rows & E & L & A & B).
  exists rows. split; [exact E|]. split; [exact L|]. split.
  - intros v d n Hv Hd Hn. replace n with v; [now apply A|]. unfold old_number in Hn. lia.
  - intros e nodes n He Hm Hd Hn. replace n with (size_local (vmaps r) + marked_before marks r e); [now apply B|]. unfold old_number, new_number in Hn. lia.
Qed.
Print Assumptions C79_coordinates.

(** The new vertex of an edge with two nodes is half way between them. *)
Theorem C79_midpoint : forall x d d' j, mean (map (fun d => xcoord x d j) [d; d']) = ((xcoord x d j + xcoord x d' j) / 2)%R.
Proof. intros. unfold mean. cbn [map fold_right length INR]. f_equal; ring. Qed.
Print Assumptions C79_midpoint.

(** Example: an interval of three cells on two ranks, each with a ghost cell.  Rank 1 marks
    its ghost cell, which is cell 1 of rank 0. *)
Definition nv_cmap (r : nat) : imap :=
  nth r [mkIM 0 2 3 [2] [1] [1] [1]; mkIM 2 3 3 [1] [0] [0] [0]] (mkIM 0 0 0 [] [] [] []).
Definition nv_vmap (r : nat) : imap :=
  nth r [mkIM 0 3 4 [3] [1] [1] [1]; mkIM 3 4 4 [2; 1] [0; 0] [0] [0]] (mkIM 0 0 0 [] [] [] []).
Definition nv_c_to_v (r : nat) : list (list nat) := nth r [[[0; 1]; [1; 2]; [2; 3]]; [[1; 0]; [2; 1]]] [].
Definition nv_cells (r : nat) : list nat := nth r [[]; [1]] [].
Example nv_cmap_ok : maps_ok 2 nv_cmap.
Proof.
  assert (Hnb : nbx_oracle 2 (senders 2)) by (intros d r _; reflexivity).
  destruct (maps_make_ok 2 (senders 2) (fun r => nth r [2; 1] 0) (fun r => nth r [[2]; [1]] []) (fun r => nth r [[1]; [0]] []) Hnb) as (m & Hm & H); [lia| |].
  - intros [|[|r]] Hr; [| |lia]; (split; [reflexivity|]); (split; [repeat first [apply NoDup_nil | apply NoDup_cons; [cbn; lia|]]|]);
      intros [|[|[|k]]] g o Hg Ho; cbn in Hg, Ho; try discriminate; injection Hg as <-; injection Ho as <-; vm_compute; lia.
  - apply (PatternMats.maps_ok_ext 2 m); [lia| |exact Hm]. intros [|[|r]] Hr; [| |lia]; destruct (H _ Hr) as (E & _); vm_compute in E; injection E as <-; reflexivity.
Qed.
Example nv_vmap_ok : maps_ok 2 nv_vmap.
Proof.
  assert (Hnb : nbx_oracle 2 (senders 2)) by (intros d r _; reflexivity).
  destruct (maps_make_ok 2 (senders 2) (fun r => nth r [3; 1] 0) (fun r => nth r [[3]; [2; 1]] []) (fun r => nth r [[1]; [0; 0]] []) Hnb) as (m & Hm & H); [lia| |].
  - intros [|[|r]] Hr; [| |lia]; (split; [reflexivity|]); (split; [repeat first [apply NoDup_nil | apply NoDup_cons; [cbn; lia|]]|]);
      intros [|[|[|k]]] g o Hg Ho; cbn in Hg, Ho; try discriminate; injection Hg as <-; injection Ho as <-; vm_compute; lia.
  - apply (PatternMats.maps_ok_ext 2 m); [lia| |exact Hm]. intros [|[|r]] Hr; [| |lia]; destruct (H _ Hr) as (E & _); vm_compute in E; injection E as <-; reflexivity.
Qed.
Example C79_interval_hyps :
  nbx_oracle 2 (senders 2) /\
  (forall r c, r < 2 -> chosen nv_cmap (Some nv_cells) r c -> c < edge_count (nv_cmap r)) /\
  (forall r, r < 2 -> size_local (nv_cmap r) <= length (nv_c_to_v r)) /\
  (forall r vs, r < 2 -> In vs (nv_c_to_v r) -> length vs = 2 /\ forall v, In v vs -> v < size_local (nv_vmap r) + num_ghosts (nv_vmap r)).
Proof.
  split; [intros d r _; reflexivity|]. split; [|split].
  - intros [|[|r]] c Hr H; [| |lia]; cbn in H; [destruct H|destruct H as [<-|[]]; vm_compute; lia].
  - intros [|[|r]] Hr; [| |lia]; vm_compute; lia.
  - intros [|[|r]] vs Hr H; [| |lia]; cbn in H; decompose [or] H; subst; try contradiction; (split; [reflexivity|]); intros v Hv; cbn in Hv; decompose [or] Hv; subst; try contradiction; vm_compute; lia.
Qed.
Example C79_interval_case :
  map (interval_refinement 2 (senders 2) nv_cmap nv_vmap nv_c_to_v (Some nv_cells) false) [0; 1] =
    [Some ([(0, 1); (1, 3); (3, 2)], [0; 1; 1]); Some ([(2, 4)], [0])] /\
  map (interval_refinement 2 (senders 2) nv_cmap nv_vmap nv_c_to_v None false) [0; 1] =
    [Some ([(0, 3); (3, 1); (1, 4); (4, 2)], [0; 0; 1; 1]); Some ([(2, 6); (6, 5)], [0; 0])].
Proof. vm_compute. auto. Qed.
Definition nv_marks (r : nat) : list bool := nth r [[false; true; false]; [false; true]] [].
Example C79_numbers_hyps : marks_ok 2 nv_cmap nv_marks.
Proof.
  split; [intros [|[|r]] Hr; [reflexivity|reflexivity|lia]|].
  assert (F : forall r e g, r < 2 -> at_global (nv_cmap r) e g -> nth_error (nv_marks r) e = Some true <-> g = 1).
  { intros r e g Hr H. apply LocateProofs.l2g_at in H. destruct r as [|[|r]]; [| |lia]; destruct e as [|[|[|e]]]; cbn in H; try discriminate; try (destruct e; discriminate); injection H as <-; cbn; split; intro K; try discriminate; reflexivity. }
  intros r q e e' g Hr Hq A B H. apply (F q e' g Hq B). now apply (F r e g Hr A).
Qed.
Example C79_numbers_case :
  map (new_vertex_map 2 (senders 2) nv_cmap nv_vmap nv_marks) [0; 1] = [Some ([3], [0; 0; 1; 1]); Some ([3], [0; 0; 1])] /\
  new_number nv_cmap nv_vmap nv_marks 0 1 = 3 /\ old_number nv_cmap nv_vmap nv_marks 1 0 = 4.
Proof. vm_compute. auto. Qed.
(** The geometry of rank 0, the nodes of the cells are the vertices in the opposite order *)
Definition nv_x : list R := [0; 0; 0; 1; 0; 0; 2; 0; 0; 4; 0; 0]%R.
Definition nv_xdofs : list (list nat) := [[1; 0]; [2; 1]; [3; 2]].
Example C79_coordinates_hyps :
  length nv_xdofs = length (nv_c_to_v 0) /\
  (forall c vs ds i v, nth_error (nv_c_to_v 0) c = Some vs -> nth_error nv_xdofs c = Some ds -> nth_error vs i = Some v ->
     v < size_local (nv_vmap 0) + num_ghosts (nv_vmap 0) /\ exists p d, nth_error [1; 0] i = Some p /\ nth_error ds p = Some d /\ 3 * d + 3 <= length nv_x) /\
  (forall v d, vertex_node nv_xdofs (nv_c_to_v 0) [1; 0] v d -> d = v) /\
  (forall v, v < size_local (nv_vmap 0) -> exists d, vertex_node nv_xdofs (nv_c_to_v 0) [1; 0] v d) /\
  (forall e, e < size_local (nv_cmap 0) -> exists nodes, nth_error nv_xdofs e = Some nodes /\ forall d, In d nodes -> 3 * d + 3 <= length nv_x).
Proof.
  split; [reflexivity|]. split; [|split; [|split]].
  - intros [|[|[|c]]] vs ds i v A B C; cbn in A, B; try (destruct c; discriminate); injection A as <-; injection B as <-;
      destruct i as [|[|i]]; cbn in C; try (destruct i; discriminate); injection C as <-; (split; [vm_compute; lia|]); eexists _, _; (split; [reflexivity|]); (split; [reflexivity|]); vm_compute; lia.
  - intros v d (c & vs & ds & i & p & A & B & C & D & E). destruct c as [|[|[|c]]]; cbn in A, B; try (destruct c; discriminate); injection A as <-; injection B as <-;
      destruct i as [|[|i]]; cbn in C, D; try (destruct i; discriminate); injection C as <-; injection D as <-; cbn in E; now injection E as <-.
  - intros [|[|[|v]]] Hv; [exists 0, 0, [0; 1], [1; 0], 0, 1|exists 1, 0, [0; 1], [1; 0], 1, 0|exists 2, 1, [1; 2], [2; 1], 1, 0|cbn in Hv; lia]; cbn; auto 10.
  - intros [|[|e]] He; [| |cbn in He; lia]; eexists; (split; [reflexivity|]); intros d Hd; cbn in Hd; decompose [or] Hd; subst; try contradiction; vm_compute; lia.
Qed.
Example C79_coordinates_case :
  exists rows, new_vertex_coords nv_xdofs (nv_c_to_v 0) [1; 0] nv_x 1 (nth_error nv_xdofs) nv_cmap nv_vmap nv_marks 0 = Some rows /\
    rows = [[0]; [1]; [2]; [3 / 2]]%R.
Proof.
  eexists. split; [reflexivity|]. cbn [length INR app]. repeat match goal with |- (_ :: _) = (_ :: _) => apply f_equal2 end; try reflexivity; cbn [fst snd]; lra.
Qed.
