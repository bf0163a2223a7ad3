(** Cases in which uniform refinement does not do what one expects, and shared vertices. *)
From Coq Require Import Reals Lra.
From Verif Require Import Base BaseProofs World IndexMap IndexMapSpec CellTypes GenerationSpec Uniform UniformSpec UniformShapes UniformProds UniformWorld.
Open Scope nat_scope.

Lemma all_divide t l : refined_cell_list t = Some l -> t <> Pyramid ->
  divides t (groups (num_cell_vertices t) l) /\ concat (groups (num_cell_vertices t) l) = l.
Proof.
  intros E H. split; [|exact (list_groups t l E)]. destruct t; try discriminate; try contradiction; injection E as <-;
    [exact tri_divides|exact tet_divides|exact quad_divides|exact prism_divides|exact hex_divides].
Qed.

(** ** The pyramid *)
Definition pyr_X (j v : nat) : R :=
  nth v (nth j [[0; 2; 0; 2; 1]; [0; 0; 2; 2; 1]; [0; 0; 0; 0; 2]]%R []) 0%R.
Definition pyr_x (j : nat) : R := nth j [1; 1; 3 / 4]%R 0%R.
Lemma mean1 f a : mean f [a] = f a.
Proof. unfold mean, rsum. cbn. field. Qed.
Lemma mean2 f a b : mean f [a; b] = ((f a + f b) / 2)%R.
Proof. unfold mean, rsum. cbn. field. Qed.
Lemma mean4 f a b c d : mean f [a; b; c; d] = ((f a + f b + f c + f d) / 4)%R.
Proof. unfold mean, rsum. cbn. field. Qed.
Definition pyr_new : list (list nat) :=
  [[0]; [1]; [2]; [3]; [4]; [0; 1]; [0; 2]; [0; 4]; [1; 3]; [1; 4]; [2; 3]; [2; 4]; [3; 4]; [0; 1; 2; 3]].
Lemma pyr_new_eq : new_vertices Pyramid = pyr_new.
Proof. vm_compute. reflexivity. Qed.
Definition pyr_children : list (cell_type * list nat) :=
  [(Pyramid, [0; 5; 6; 13; 7]); (Pyramid, [1; 8; 5; 13; 9]); (Pyramid, [3; 10; 8; 13; 12]); (Pyramid, [2; 6; 10; 13; 11]); (Pyramid, [7; 9; 11; 12; 4]);
   (Tetrahedron, [5; 13; 7; 9]); (Tetrahedron, [6; 13; 11; 7]); (Tetrahedron, [10; 13; 12; 11]); (Tetrahedron, [8; 13; 9; 12])].
Lemma pyr_children_eq : children Pyramid = pyr_children.
Proof. vm_compute. reflexivity. Qed.
Lemma pyramid_hole : exists X x, (exists l, (forall a, In a l -> (0 < a)%R) /\ point_of Pyramid X l x) /\
  ~ exists u c m, In (u, c) (children Pyramid) /\ point_of_child Pyramid u X c m x.
Proof.
  exists pyr_X, pyr_x. split.
  - exists [5 / 32; 5 / 32; 5 / 32; 5 / 32; 3 / 8]%R. assert (Hpos : forall a, In a [5 / 32; 5 / 32; 5 / 32; 5 / 32; 3 / 8]%R -> (0 < a)%R).
    { intros a Ha. cbn [In] in Ha. repeat destruct Ha as [<-|Ha]; try contradiction; lra. }
    split; [exact Hpos|]. split.
    + split; [reflexivity|]. split; [intros a Ha; apply Rlt_le, Hpos, Ha|]. unfold rsum. cbn [fold_right]. lra.
    + intro j. change (num_cell_vertices Pyramid) with 5. unfold comb, rsum, pyr_x, pyr_X. cbn [seq combine map fst snd fold_right nth].
      destruct j as [|[|[|j]]]; cbn [nth]; try lra. destruct j; cbn [nth]; lra.
  - intros (u & c & m & Hin & Hw & Hx). rewrite pyr_children_eq in Hin. rewrite pyr_new_eq in Hx.
    pose proof (Hx 0) as X0. pose proof (Hx 1) as X1. pose proof (Hx 2) as X2. clear Hx. cbn [In pyr_children] in Hin.
    repeat destruct Hin as [E|Hin]; try contradiction; injection E as <- <-; destruct Hw as (Hl & Hn & Hs);
      (destruct m as [|a [|b [|d [|e [|f [|g m]]]]]]; try discriminate Hl);
      pose proof (fun y H => Hn y H) as Hn'; cbn [In] in Hn';
      repeat match goal with a : R |- _ => match goal with H : (0 <= a)%R |- _ => fail 1 | _ => assert (0 <= a)%R by (apply Hn'; tauto) end end;
      unfold comb, rsum, pyr_x, pyr_new in X0, X1, X2, Hs; cbn [nth combine map fst snd fold_right] in X0, X1, X2, Hs;
      rewrite ?mean1, ?mean2, ?mean4 in X0, X1, X2; unfold pyr_X in X0, X1, X2; cbn [nth] in X0, X1, X2; lra.
Qed.

(** ** Throws *)
Lemma ofold_dead {A S} (f : S -> A -> option S) l a : In a l -> (forall s, f s a = None) -> forall s, ofold f l s = None.
Proof.
  intros Hin Hf. induction l as [|b l IH]; [contradiction|]. intro s. cbn [ofold]. destruct Hin as [->|Hin]; [rewrite Hf; reflexivity|].
  destruct (f s b); [apply IH, Hin|reflexivity].
Qed.
Lemma obind_dead {A B} (o : option A) : (_ <- o ;; @None B) = None.
Proof. destruct o; reflexivity. Qed.
Lemma layout_dead n d : length d < n -> layout_dofs (n, d) = None.
Proof.
  intro H. destruct (layout_dofs (n, d)) as [l|] eqn:E; [|reflexivity]. exfalso. unfold layout_dofs in E. cbn [fst snd] in E.
  destruct (omap_nth _ _ _ E (length d) (length d)) as (b & _ & Hb); [rewrite nth_error_seq by exact H; reflexivity|].
  rewrite (proj2 (nth_error_None d (length d)) (le_n _)) in Hb. discriminate.
Qed.
Lemma curved_throws {T} zero add div P types (mesh : nat -> umesh T) r k n d : k < length (last types []) ->
  nth_error (um_layouts (mesh r)) k = Some (n, d) -> length d < n -> uniform_refine T zero add div P types mesh r = None.
Proof.
  intros Hk El Hn. unfold uniform_refine. destruct (tdim types <? 2); [reflexivity|]. destruct (uni_maps T types mesh r) as [maps|]; [|reflexivity]. cbn [obind].
  unfold new_x. replace (vertex_to_x T types mesh r maps) with (@None (list nat)); [reflexivity|]. unfold vertex_to_x. destruct (nth_error maps 0) as [m0|]; [|reflexivity]. cbn [obind].
  symmetry. apply (ofold_dead _ _ k); [apply in_seq; unfold cell_entity_types; lia|]. intro s.
  destruct (nth_error (um_dofmaps (mesh r)) k); [|reflexivity]. cbn [obind]. destruct (um_conn (mesh r) (tdim types, k) (0, 0)); [|reflexivity]. cbn [obind].
  rewrite El. cbn [obind]. rewrite layout_dead by exact Hn. reflexivity.
Qed.
Lemma pyramids_throw {T} zero add div P types (mesh : nat -> umesh T) r : In Pyramid (last types []) -> ~ In Tetrahedron (last types []) ->
  uniform_refine T zero add div P types mesh r = None.
Proof.
  intros Hp Ht. unfold uniform_refine. destruct (tdim types <? 2); [reflexivity|]. destruct (uni_maps T types mesh r) as [maps|]; [|reflexivity]. cbn [obind].
  destruct (new_x T zero add div types mesh r maps) as [x|]; [|reflexivity]. cbn [obind]. destruct (omap _ _) as [nv|]; [|reflexivity]. cbn [obind].
  apply In_nth_error in Hp as (k & Hk). rewrite (ofold_dead _ _ k); [reflexivity|apply in_seq; apply nth_error_bound in Hk; unfold cell_entity_types; lia|].
  intro s. unfold refine_type, cell_entity_types. rewrite Hk. cbn [obind refined_cell_list cell_eqb]. rewrite find_type_none by exact Ht. reflexivity.
Qed.

(** ** Cells share vertices exactly where their entities are the same. *)
Lemma forall2_nth {A B} (Q : A -> B -> Prop) l l' i b : Forall2 Q l l' -> nth_error l' i = Some b -> exists a, nth_error l i = Some a /\ Q a b.
Proof.
  intro H. revert i. induction H as [|x y l l' Hq _ IH]; intros i Hi; [destruct i; discriminate|]. destruct i as [|i]; [injection Hi as <-; exists x; auto|].
  apply IH, Hi.
Qed.
Lemma shared_numbers {T} P types (mesh : nat -> umesh T) kinds M verts L r k c N t cv vs r' k' c' N' t' cv' vs' i i' n n' e e' :
  enumerates P kinds M L ->
  (forall j g j' g', In (j, g) L -> In (j', g') L ->
    Permutation (if j =? 0 then [g] else verts j g) (if j' =? 0 then [g'] else verts j' g') -> (j, g) = (j', g')) ->
  cell_numbers types mesh kinds M verts L r k c N -> cell_numbers types mesh kinds M verts L r' k' c' N' ->
  nth_error (last types []) k = Some t -> links types mesh kinds r k c 0 = Some vs -> omap (local_to_global (M 0 r)) vs = Some cv ->
  nth_error (last types []) k' = Some t' -> links types mesh kinds r' k' c' 0 = Some vs' -> omap (local_to_global (M 0 r')) vs' = Some cv' ->
  nth_error N i = Some n -> nth_error N' i' = Some n' -> nth_error (new_vertices t) i = Some e -> nth_error (new_vertices t') i' = Some e' ->
  (n = n' <-> Permutation (map (fun v => nth v cv 0) e) (map (fun v => nth v cv' 0) e')).
Proof.
  intros (HL & _) HD (t1 & vs1 & cv1 & A1 & A2 & A3 & HF) (t2 & vs2 & cv2 & B1 & B2 & B3 & HF') E1 E2 E3 E4 E5 E6 Hn Hn' He He'.
  assert (t1 = t) by congruence. assert (vs1 = vs) by congruence. subst t1 vs1. assert (cv1 = cv) by congruence. subst cv1.
  assert (t2 = t') by congruence. assert (vs2 = vs') by congruence. subst t2 vs2. assert (cv2 = cv') by congruence. subst cv2.
  destruct (forall2_nth _ _ _ _ _ HF Hn) as (e1 & Ee & j & g & Hg & Hp). assert (e1 = e) by congruence. subst e1.
  destruct (forall2_nth _ _ _ _ _ HF' Hn') as (e1 & Ee' & j' & g' & Hg' & Hp'). assert (e1 = e') by congruence. subst e1. split.
  - intros <-. rewrite Hg in Hg'. injection Hg' as <- <-. rewrite <- Hp. exact Hp'.
  - intro H. assert (Q : (j, g) = (j', g')).
    { apply HD; [eapply nth_error_In; exact Hg|eapply nth_error_In; exact Hg'|]. rewrite Hp, Hp'. exact H. }
    injection Q as <- <-. apply (proj1 (NoDup_nth_error L) HL); [apply nth_error_bound in Hg; exact Hg|congruence].
Qed.
