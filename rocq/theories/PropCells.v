(** Property C51: cell types. *)
From Coq Require Import String.
From Verif Require Import Base BaseProofs Algo AlgoProofs CellTypes.
Open Scope nat_scope.
Open Scope list_scope.

(** C51: names and types. *)
Theorem C51_names : forall t, to_type (to_string t) = Some t.
Proof. intros []; reflexivity. Qed.
Print Assumptions C51_names.
Theorem C51_unknown_names :
  forall s, to_type s = None <-> ~ In s ["point"; "interval"; "interval2D"; "interval3D"; "triangle"; "triangle3D"; "tetrahedron"; "quadrilateral"; "quadrilateral3D"; "pyramid"; "prism"; "hexahedron"]%string.
Proof.
  intro s. unfold to_type. split.
  - intros H Hin. cbn [In] in Hin. repeat (destruct Hin as [<-|Hin]; [discriminate|]). destruct Hin.
  - intro N. cbn [In] in N. repeat match goal with |- context [String.eqb s ?x] => destruct (String.eqb_spec s x); [subst; exfalso; apply N; tauto|] end. reflexivity.
Qed.
Print Assumptions C51_unknown_names.

(** The vertices of sub-entity [i] of dimension [d]. *)
Definition verts (t : cell_type) (d i : nat) : list nat := nth i (nth d (topology t) []) [].

(** C51: numbers of vertices, types of the sub-entities and simplices. *)
Definition all_types := [Point; Interval; Triangle; Tetrahedron; Quadrilateral; Pyramid; Prism; Hexahedron].
Lemma all_types_in t : In t all_types. Proof. destruct t; cbn; tauto. Qed.
Definition check_types (t : cell_type) : bool :=
  forallb (fun d => forallb (fun i => (num_cell_vertices (cell_entity_type t d i) =? List.length (verts t d i)) && (cell_dim (cell_entity_type t d i) =? d)
                                   && forallb (fun v => v <? num_cell_vertices t) (verts t d i)) (seq 0 (List.length (nth d (topology t) [])))) (seq 0 (S (cell_dim t))).
Lemma check_types_all : forallb check_types all_types = true. Proof. vm_compute. reflexivity. Qed.
Lemma types_ok : forall t, List.length (topology t) = S (cell_dim t) /\ cell_num_entities t 0 = Some (num_cell_vertices t) /\ cell_num_entities t (cell_dim t) = Some 1 /\
  (is_simplex t = true <-> num_cell_vertices t = S (cell_dim t)) /\
  forall d n i, d <= cell_dim t -> cell_num_entities t d = Some n -> i < n ->
    num_cell_vertices (cell_entity_type t d i) = List.length (verts t d i) /\ cell_dim (cell_entity_type t d i) = d /\ Forall (fun v => v < num_cell_vertices t) (verts t d i).
Proof.
  intro t. split; [destruct t; reflexivity|]. split; [destruct t; reflexivity|]. split; [destruct t; reflexivity|]. split; [destruct t; vm_compute; split; congruence|].
  intros d n i Hd Hn Hi. pose proof (proj1 (forallb_forall _ _) check_types_all t (all_types_in t)) as C. unfold check_types in C.
  pose proof (proj1 (forallb_forall _ _) C d ltac:(apply in_seq; lia)) as C1. cbn beta in C1. unfold cell_num_entities in Hn. destruct (nth_error (topology t) d) as [l|] eqn:El; [|discriminate]. cbn [option_map] in Hn. injection Hn as <-.
  rewrite (nth_error_nth _ _ [] El) in C1. pose proof (proj1 (forallb_forall _ _) C1 i ltac:(apply in_seq; lia)) as C2. cbn beta in C2. apply andb_prop in C2 as (C2 & C4). apply andb_prop in C2 as (C2 & C3). apply Nat.eqb_eq in C2, C3. split; [exact C2|]. split; [exact C3|].
  apply Forall_forall. intros v Hv. apply Nat.ltb_lt. exact (proj1 (forallb_forall _ _) C4 v Hv).
Qed.
Theorem C51_types :
  forall t, List.length (topology t) = S (cell_dim t) /\ cell_num_entities t 0 = Some (num_cell_vertices t) /\ cell_num_entities t (cell_dim t) = Some 1 /\
  (is_simplex t = true <-> num_cell_vertices t = S (cell_dim t)) /\
  forall d n i, d <= cell_dim t -> cell_num_entities t d = Some n -> i < n ->
    num_cell_vertices (cell_entity_type t d i) = List.length (verts t d i) /\ cell_dim (cell_entity_type t d i) = d /\ Forall (fun v => v < num_cell_vertices t) (verts t d i).
Proof. exact types_ok. Qed.
Print Assumptions C51_types.

(** C51: the closure of a sub-entity is the set of the sub-entities whose vertices are among
    its vertices.  What is missing: points, see [C51_point_refuted]. *)
Fixpoint lookup {X} (c : list ((nat * nat) * X)) (d i : nat) : option X :=
  match c with [] => None | ((d', i'), x) :: r => if (d' =? d) && (i' =? i) then Some x else lookup r d i end.
Definition check_closure (t : cell_type) (c : list ((nat * nat) * list (list nat))) : bool :=
  forallb (fun d => forallb (fun i => match lookup c d i with None => false | Some sets => (List.length sets =? S (cell_dim t)) &&
    forallb (fun d' => forallb (fun x => mem x (filter (fun j => subset (verts t d' j) (verts t d i)) (seq 0 (List.length (nth d' (topology t) []))))) (nth d' sets []) &&
                       forallb (fun x => mem x (nth d' sets [])) (filter (fun j => subset (verts t d' j) (verts t d i)) (seq 0 (List.length (nth d' (topology t) [])))))
            (seq 0 (S (cell_dim t))) end) (seq 0 (List.length (nth d (topology t) [])))) (seq 0 (S (cell_dim t))).
Lemma check_closure_all : forallb (fun t => match cell_entity_closure t with Some c => check_closure t c | None => false end) [Interval; Triangle; Tetrahedron; Quadrilateral; Pyramid; Prism; Hexahedron] = true.
Proof. vm_compute. reflexivity. Qed.
Lemma subset_iff a b : subset a b = true <-> incl a b.
Proof. unfold subset. rewrite forallb_forall. unfold incl. split; intros H x Hx; apply mem_iff; now apply H. Qed.
Lemma num_ents t d n : cell_num_entities t d = Some n -> n = List.length (nth d (topology t) []).
Proof. unfold cell_num_entities. destruct (nth_error (topology t) d) as [l|] eqn:E; [|discriminate]. cbn. intro H. injection H as <-. now rewrite (nth_error_nth _ _ [] E). Qed.
Lemma closure_ok : forall t, t <> Point -> exists c, cell_entity_closure t = Some c /\
    forall d n i, d <= cell_dim t -> cell_num_entities t d = Some n -> i < n ->
    exists sets, lookup c d i = Some sets /\ List.length sets = S (cell_dim t) /\
      forall d' n' j, d' <= cell_dim t -> cell_num_entities t d' = Some n' -> (In j (nth d' sets []) <-> j < n' /\ incl (verts t d' j) (verts t d i)).
Proof.
  intros t Ht. pose proof (proj1 (forallb_forall _ _) check_closure_all t ltac:(destruct t; cbn; tauto)) as C. cbn beta in C. destruct (cell_entity_closure t) as [c|]; [|discriminate]. exists c. split; [reflexivity|].
  intros d n i Hd Hn Hi. apply num_ents in Hn. unfold check_closure in C. pose proof (proj1 (forallb_forall _ _) C d ltac:(apply in_seq; lia)) as C1. cbn beta in C1. rewrite <- Hn in C1.
  pose proof (proj1 (forallb_forall _ _) C1 i ltac:(apply in_seq; lia)) as C2. cbn beta in C2. destruct (lookup c d i) as [sets|]; [|discriminate]. exists sets. split; [reflexivity|]. apply andb_prop in C2 as (C2 & C3). apply Nat.eqb_eq in C2. split; [exact C2|].
  intros d' n' j Hd' Hn'. apply num_ents in Hn'. pose proof (proj1 (forallb_forall _ _) C3 d' ltac:(apply in_seq; lia)) as C4. cbn beta in C4. rewrite <- Hn' in C4. apply andb_prop in C4 as (C4 & C5).
  rewrite <- subset_iff. rewrite forallb_forall in C4, C5. split.
  - intro H. apply C4, mem_iff, filter_In in H as (H & Hs). apply in_seq in H. split; [lia|exact Hs].
  - intros (Hj & Hs). apply mem_iff. apply C5. apply filter_In. split; [apply in_seq; lia|exact Hs].
Qed.
Theorem C51_closure_partial :
  forall t, t <> Point -> exists c, cell_entity_closure t = Some c /\
    forall d n i, d <= cell_dim t -> cell_num_entities t d = Some n -> i < n ->
    exists sets, lookup c d i = Some sets /\ List.length sets = S (cell_dim t) /\
      forall d' n' j, d' <= cell_dim t -> cell_num_entities t d' = Some n' -> (In j (nth d' sets []) <-> j < n' /\ incl (verts t d' j) (verts t d i)).
Proof. exact closure_ok. Qed.
Print Assumptions C51_closure_partial.
(** C51: the closure of a point reads the edges of the point, which do not exist. *)
Theorem C51_point_refuted : cell_entity_closure Point = None.
Proof. reflexivity. Qed.
Print Assumptions C51_point_refuted.
Example ex_closure : option_map (fun c => lookup c 2 1) (cell_entity_closure Prism) = Some (Some [[0; 1; 3; 4]; [0; 2; 4; 6]; [1]; []]).
Proof. vm_compute. reflexivity. Qed.
