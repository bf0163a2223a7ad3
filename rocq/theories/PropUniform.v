(** C72: uniform refinement. *)
From Coq Require Import ZArith Reals Lra.
From Verif Require Import Base BaseProofs World IndexMap IndexMapSpec CellTypes GenerationSpec Uniform UniformSpec UniformFacets UniformWorld UniformEdge.
Open Scope nat_scope.

(** The cells that the code makes of a cell divide it, unless it is a pyramid. *)
Theorem C72_divides : forall t l, refined_cell_list t = Some l -> t <> Pyramid ->
  divides t (groups (num_cell_vertices t) l) /\ concat (groups (num_cell_vertices t) l) = l.
Proof. exact all_divide. Qed.
Print Assumptions C72_divides.

(** On a facet that two cells share, their children have the same facets. *)
Theorem C72_facets : forall t t' f f' s s', 2 <= cell_dim t -> 2 <= cell_dim t' -> In f (facets t) -> In f' (facets t') ->
  glued t t' (snd f) (snd f') s s' -> same_pieces (pieces t (children t) (snd f) s) (pieces t' (children t') (snd f') s').
Proof. exact common_facets. Qed.
Print Assumptions C72_facets.

(** Every vertex, edge, quadrilateral and hexahedron of the mesh gives one vertex, in its middle;
    all ranks agree on the numbers of these vertices, and the coordinates are passed on in the
    order of the numbers.  Every rank passes on the children of the cells it owns, by type. *)
Theorem C72_refine : forall T zero add div P types (mesh : nat -> umesh T) kinds M CM verts pos,
  refinable P types mesh kinds M CM verts pos ->
  exists L N out rows, enumerates P kinds M L /\ Forall2 (middle verts pos zero add div) L rows /\
    concat (map (fun r => fst (out r)) (seq 0 P)) = concat rows /\
    forall r, r < P -> uniform_refine T zero add div P types mesh r = Some (out r) /\
      (forall k c, k < length (last types []) -> c < size_local (CM k r) -> cell_numbers types mesh kinds M verts L r k c (N r k c)) /\
      length (snd (out r)) = length (last types []) /\
      forall k u, nth_error (last types []) k = Some u -> nth_error (snd (out r)) k = Some (concat (map (fun k' => concat (map (fun c =>
        child_cells u (nth k' (last types []) Point) (N r k' c)) (seq 0 (size_local (CM k' r))))) (seq 0 (length (last types []))))).
Proof. intros T zero add div P types mesh kinds M CM verts pos HR. exact (refine_all zero add div P types mesh kinds M CM verts pos HR). Qed.
Print Assumptions C72_refine.

(** Children of different cells, on any ranks, share a vertex exactly if it is the middle of the
    same entity. *)
Theorem C72_shared : forall T P types (mesh : nat -> umesh T) kinds M verts L r k c N t cv vs r' k' c' N' t' cv' vs' i i' n n' e e',
  enumerates P kinds M L ->
  (forall j g j' g', In (j, g) L -> In (j', g') L ->
    Permutation (if j =? 0 then [g] else verts j g) (if j' =? 0 then [g'] else verts j' g') -> (j, g) = (j', g')) ->
  cell_numbers types mesh kinds M verts L r k c N -> cell_numbers types mesh kinds M verts L r' k' c' N' ->
  nth_error (last types []) k = Some t -> links types mesh kinds r k c 0 = Some vs -> omap (local_to_global (M 0 r)) vs = Some cv ->
  nth_error (last types []) k' = Some t' -> links types mesh kinds r' k' c' 0 = Some vs' -> omap (local_to_global (M 0 r')) vs' = Some cv' ->
  nth_error N i = Some n -> nth_error N' i' = Some n' -> nth_error (new_vertices t) i = Some e -> nth_error (new_vertices t') i' = Some e' ->
  (n = n' <-> Permutation (map (fun v => nth v cv 0) e) (map (fun v => nth v cv' 0) e')).
Proof. intros T. exact shared_numbers. Qed.
Print Assumptions C72_shared.

(** The children of a pyramid leave a hole: a point in the interior is in none of them. *)
Theorem C72_pyramid_refuted : exists X x, (exists l, (forall a, In a l -> (0 < a)%R) /\ point_of Pyramid X l x) /\
  ~ exists u c m, In (u, c) (children Pyramid) /\ point_of_child Pyramid u X c m x.
Proof. exact pyramid_hole. Qed.
Print Assumptions C72_pyramid_refuted.
(** Meshes of pyramids without tetrahedra cannot be refined. *)
Theorem C72_pyramids_only_refuted : forall T zero add div P types (mesh : nat -> umesh T) r,
  In Pyramid (last types []) -> ~ In Tetrahedron (last types []) -> uniform_refine T zero add div P types mesh r = None.
Proof. intros T. exact pyramids_throw. Qed.
Print Assumptions C72_pyramids_only_refuted.
(** Neither can meshes whose geometry has more nodes than vertices. *)
Theorem C72_curved_refuted : forall T zero add div P types (mesh : nat -> umesh T) r k n d,
  k < length (last types []) -> nth_error (um_layouts (mesh r)) k = Some (n, d) -> length d < n ->
  uniform_refine T zero add div P types mesh r = None.
Proof. intros T. exact curved_throws. Qed.
Print Assumptions C72_curved_refuted.

(** ** Examples *)
(** Two triangles on two ranks; rank 1 has the vertices 3, 1, 2 and the edges 3, 4, 0. *)
Definition ux_types : list (list cell_type) := [[Point]; [Interval]; [Triangle]].
Definition ux_M (j r : nat) : imap :=
  match j, r with
  | 0, 0 => mkIM 0 3 4 [] [] [] [1]
  | 0, _ => mkIM 3 4 4 [1; 2] [0; 0] [0] []
  | _, 0 => mkIM 0 3 5 [] [] [] [1]
  | _, _ => mkIM 3 5 5 [0] [0] [0] []
  end.
Definition ux_CM (k r : nat) : imap := mkIM r (S r) 2 [] [] [] [].
Definition ux_verts (j g : nat) : list nat := nth g [[1; 2]; [0; 2]; [0; 1]; [2; 3]; [1; 3]] [].
Definition ux_pos (g a : nat) : Z := nth a (nth g [[0; 0; 0]; [2; 0; 0]; [0; 2; 0]; [2; 2; 0]]%Z []) 0%Z.
Definition ux_conn (cv ce ev : list (list nat)) (a b : nat * nat) : option (list (list nat)) :=
  match a, b with
  | (2, 0), (0, 0) => Some cv
  | (2, 0), (1, 0) => Some ce
  | (1, 0), (0, 0) => Some ev
  | _, _ => None
  end.
Definition ux_mesh (r : nat) : umesh Z :=
  match r with
  | 0 => mkUM [[ux_M 0 0]; [ux_M 1 0]; [ux_CM 0 0]] (ux_conn [[0; 1; 2]] [[0; 1; 2]] [[1; 2]; [0; 2]; [0; 1]])
           [[[0; 1; 2]]] [(3, [[0]; [1]; [2]])] [0; 0; 0; 2; 0; 0; 0; 2; 0]%Z
  | _ => mkUM [[ux_M 0 1]; [ux_M 1 1]; [ux_CM 0 1]] (ux_conn [[1; 2; 0]] [[0; 1; 2]] [[0; 2]; [0; 1]; [2; 1]])
           [[[2; 0; 1]]] [(3, [[0]; [1]; [2]])] [0; 2; 0; 2; 2; 0; 2; 0; 0]%Z
  end.
Definition ux_div (x : Z) (n : nat) : Z := (x / Z.of_nat n)%Z.
Example C72_example_output :
  uniform_refine Z 0%Z Z.add ux_div 2 ux_types ux_mesh 0 =
    Some ([0; 0; 0; 2; 0; 0; 0; 2; 0; 1; 1; 0; 0; 1; 0; 1; 0; 0]%Z, [[0; 4; 5; 1; 5; 3; 2; 3; 4; 3; 4; 5]]) /\
  uniform_refine Z 0%Z Z.add ux_div 2 ux_types ux_mesh 1 =
    Some ([2; 2; 0; 1; 2; 0; 2; 1; 0]%Z, [[1; 8; 3; 2; 3; 7; 6; 7; 8; 7; 8; 3]]).
Proof. split; vm_compute; reflexivity. Qed.

Lemma ux_maps_ok j : maps_ok 2 (ux_M j).
Proof.
  destruct j as [|j]; constructor;
  [ reflexivity
  | intros [|r] H; [reflexivity|lia]
  | intros [|[|r]] H; cbn; lia
  | intros [|[|r]] H; reflexivity
  | intros [|[|r]] H; [| |lia]; cbn; repeat first [apply NoDup_nil | apply NoDup_cons; [cbn; lia|]]
  | intros [|[|r]] [|[|k]] g o H Hg Ho; cbn in Hg, Ho; try (destruct k; discriminate); try discriminate; try lia; injection Hg as <-; injection Ho as <-; unfold owns; cbn; lia
  | intros [|[|r]] H; [| |lia]; cbn; (split; [repeat constructor|]; intros s; tauto)
  | intros [|[|r]] H; [| |lia]; cbn; (split; [repeat constructor|]; intros s; split; [cbn; intros Hs; try contradiction; destruct Hs as [<-|[]]; cbn; lia|intros [Hs Hin]; destruct s as [|[|s]]; cbn in Hin; lia])
  | reflexivity
  | intros [|r] H; [reflexivity|lia]
  | intros [|[|r]] H; cbn; lia
  | intros [|[|r]] H; reflexivity
  | intros [|[|r]] H; [| |lia]; cbn; repeat first [apply NoDup_nil | apply NoDup_cons; [cbn; lia|]]
  | intros [|[|r]] [|[|k]] g o H Hg Ho; cbn in Hg, Ho; try (destruct k; discriminate); try discriminate; try lia; injection Hg as <-; injection Ho as <-; unfold owns; cbn; lia
  | intros [|[|r]] H; [| |lia]; cbn; (split; [repeat constructor|]; intros s; tauto)
  | intros [|[|r]] H; [| |lia]; cbn; (split; [repeat constructor|]; intros s; split; [cbn; intros Hs; try contradiction; destruct Hs as [<-|[]]; cbn; lia|intros [Hs Hin]; destruct s as [|[|s]]; cbn in Hin; lia]) ].
Qed.
Example C72_example_refinable : refinable 2 ux_types ux_mesh [0; 0] ux_M ux_CM ux_verts ux_pos.
Proof.
  assert (RR : forall r, r < 2 -> r = 0 \/ r = 1) by (intros; lia). constructor.
  - cbn. lia.
  - split; reflexivity.
  - intros t [<-|[]]. reflexivity.
  - intros [|[|[|j]]]; cbn; [| | |destruct j]; repeat constructor; cbn; tauto.
  - intros [|[|[|j]]]; cbn; [reflexivity|reflexivity|split; [lia|intros [E|[]]; discriminate]|].
    replace (nth_error (@nil nat) j) with (@None nat) by (destruct j; reflexivity). split; [lia|]. destruct j; cbn; tauto.
  - intros t j [<-|[]] Hj. cbn [length] in Hj. destruct j as [|[|[|j]]]; try lia; [vm_compute; reflexivity|]. unfold new_entities. cbn [topology nth]. destruct j; reflexivity.
  - intros [E|[]]. discriminate.
  - intros j _. apply ux_maps_ok.
  - intros r [|[|j]] Hr Hj; cbn [length] in Hj; try lia; destruct (RR r Hr) as [->| ->]; eexists; split; reflexivity.
  - intros r [|k] Hr Hk; cbn in Hk; [|lia]. destruct (RR r Hr) as [->| ->]; eexists; split; reflexivity.
  - intros r [|[|j]] Hr Hj; cbn [length] in Hj; try lia. destruct (RR r Hr) as [->| ->]; (eexists; split; [reflexivity|]); intros w Hw; cbn in Hw;
      (destruct w as [|[|[|w]]]; try lia); (eexists; eexists; split; [reflexivity|]; split; [reflexivity|]; cbn; auto using perm_swap).
  - intros r v Hr Hv. exists 0, 0. destruct (RR r Hr) as [->| ->]; cbn in Hv; (eexists; split; [cbn; lia|]; split; [cbn; lia|]; split; [reflexivity|]; cbn; lia).
  - intros r [|k] j Hr Hk Hj; cbn in Hk; [|lia]. destruct j as [|[|j]]; [| |lia]; destruct (RR r Hr) as [->| ->]; discriminate.
  - intros r [|k] Hr Hk; cbn in Hk; [|lia].
    destruct (RR r Hr) as [->| ->]; [exists (nth 0 (um_dofmaps (ux_mesh 0)) []), [0; 1; 2], 3|exists (nth 0 (um_dofmaps (ux_mesh 1)) []), [0; 1; 2], 3];
      (split; [reflexivity|]; split; [reflexivity|]; split; [reflexivity|]; intros [|c] Hc; cbn in Hc; [|lia];
       eexists; eexists; split; [reflexivity|]; split; [reflexivity|]; split; [reflexivity|];
       intros [|[|[|i]]] v d Hv Hd; cbn in Hv, Hd; try (destruct i; discriminate); injection Hv as <-; injection Hd as <-;
       (eexists; eexists; split; [reflexivity|]; split; [reflexivity|]; intros [|[|[|a]]] Ha; try lia; reflexivity)).
  - intros r [|k] t c Hr Ht Hc; [|destruct k; discriminate]. injection Ht as <-. cbn in Hc.
    assert (c = 0) by (destruct (RR r Hr) as [->| ->]; cbn in Hc; lia). subst c.
    destruct (RR r Hr) as [->| ->]; (eexists; eexists; split; [reflexivity|]; split; [reflexivity|]; split; [reflexivity|]);
      intros [|[|j]] Hj; cbn [length] in Hj; try lia; (eexists; eexists; split; [reflexivity|]; split; [reflexivity|]); cbn;
      repeat constructor.
Qed.
(** The entities have different vertices, as [C72_shared] asks. *)
Example C72_example_distinct : forall j g j' g', (j = 0 /\ g < 4 \/ j = 1 /\ g < 5) -> (j' = 0 /\ g' < 4 \/ j' = 1 /\ g' < 5) ->
  Permutation (if j =? 0 then [g] else ux_verts j g) (if j' =? 0 then [g'] else ux_verts j' g') -> (j, g) = (j', g').
Proof.
  intros j g j' g' H H' Hp.
  assert (Hs : forall x, In x (if j =? 0 then [g] else ux_verts j g) <-> In x (if j' =? 0 then [g'] else ux_verts j' g'))
    by (intro x; split; apply Permutation_in; [exact Hp|apply Permutation_sym, Hp]).
  pose proof (Permutation_length Hp) as Hl. clear Hp.
  destruct H as [(-> & Hg)|(-> & Hg)], H' as [(-> & Hg')|(-> & Hg')]; cbn [Nat.eqb] in Hs, Hl.
  - destruct (proj1 (Hs g) (or_introl eq_refl)) as [->|[]]. reflexivity.
  - do 5 (destruct g' as [|g']; [discriminate Hl|]). lia.
  - do 5 (destruct g as [|g]; [discriminate Hl|]). lia.
  - pose proof (Hs 0) as H0. pose proof (Hs 1) as H1. pose proof (Hs 2) as H2. pose proof (Hs 3) as H3. clear Hs Hl.
    do 5 (destruct g as [|g]; [do 5 (destruct g' as [|g']; [first [reflexivity|exfalso; cbn in H0, H1, H2, H3; lia]|]); lia|]). lia.
Qed.
(** Two tetrahedra that share a facet, with the names 0, 1, 2, 3 and 4, 2, 1, 3 of their vertices *)
Example C72_example_glued : glued Tetrahedron Tetrahedron [1; 2; 3] [1; 2; 3] (fun v => v) (fun v => nth v [4; 2; 1; 3] 0) /\
  length (pieces Tetrahedron (children Tetrahedron) [1; 2; 3] (fun v => v)) = 4.
Proof.
  split; [|vm_compute; reflexivity]. split; [repeat constructor; cbn; lia|]. split; [intro x; cbn; lia|]. split; [reflexivity|].
  intros e He Hs. vm_compute in He. repeat destruct He as [<-|He]; try contradiction; try discriminate Hs.
  - exists [1; 3]. split; [cbn; tauto|]. split; [reflexivity|]. intro x. cbn. lia.
  - exists [2; 3]. split; [cbn; tauto|]. split; [reflexivity|]. intro x. cbn. lia.
  - exists [1; 2]. split; [cbn; tauto|]. split; [reflexivity|]. intro x. cbn. lia.
Qed.
(** A triangle with different points for different weights, as [dv_match] asks *)
Example C72_example_proper : proper Triangle (fun j v => nth v (nth j [[0; 1; 0]; [0; 0; 1]]%R []) 0%R).
Proof.
  intros l l' x ((Hl & _ & Hs) & Hx) ((Hl' & _ & Hs') & Hx').
  destruct l as [|a [|b [|c [|d l]]]]; try discriminate Hl. destruct l' as [|a' [|b' [|c' [|d' l']]]]; try discriminate Hl'.
  pose proof (Hx 0) as E0. pose proof (Hx 1) as E1. rewrite Hx' in E0, E1. change (num_cell_vertices Triangle) with 3 in *. unfold comb, rsum in *.
  cbn in E0, E1, Hs, Hs'. assert (b = b') by lra. assert (c = c') by lra. assert (a = a') by lra. subst. reflexivity.
Qed.
