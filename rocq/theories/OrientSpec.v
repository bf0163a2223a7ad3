(** Vocabulary of the properties of entity orientation (C36, C37). *)
From Coq Require Import NArith.
From Verif Require Import Base Algo CellTypes Orient.
Open Scope nat_scope.

(** The symmetries of a face acting on its vertex list.  A triangle is listed around; a
    quadrilateral is listed as
        0 - 2
        |   |
        1 - 3
    so that around it the positions are 0, 1, 3, 2. *)
Definition rotate {A} (l : list A) : list A :=
  match l with
  | [a; b; c] => [c; a; b]
  | [a; b; c; d] => [c; a; d; b]
  | _ => l
  end.
Definition reflect {A} (l : list A) : list A :=
  match l with
  | [a; b] => [b; a]
  | [a; b; c] => [a; c; b]
  | [a; b; c; d] => [a; c; b; d]
  | _ => l
  end.
(** A reflection if asked for, then a number of rotations *)
Definition turn {A} (refl : bool) (rots : nat) (l : list A) : list A :=
  Nat.iter rots rotate (if refl then reflect l else l).

(** Two listings of the vertices of one quadrilateral: the same vertices, and the same
    pairs of opposite corners (positions 0 and 3, and 1 and 2). *)
Definition opposite {A} (l : list A) (x y : A) : Prop :=
  match l with
  | [a; b; c; d] => (x = a /\ y = d) \/ (x = d /\ y = a) \/ (x = b /\ y = c) \/ (x = c /\ y = b)
  | _ => False
  end.
Definition same_quad {A} (l l' : list A) : Prop :=
  Permutation l l' /\ forall x y, opposite l x y <-> opposite l' x y.

(** The global vertex lists [g] and [g'] of two local entities are those of one mesh entity. *)
Definition same_entity (type : cell_type) (g g' : list Z) : Prop :=
  match type with Quadrilateral => same_quad g g' | _ => Permutation g g' end.

(** The global indices of a vertex list increase. *)
Definition increasing (l2g : nat -> option Z) (el : list nat) : Prop :=
  exists g, omap l2g el = Some g /\ StronglySorted Z.lt g.

(** The fields of the cell permutation info of face [f] (bit [3 f]: reflection, two bits of
    rotations) and of edge [e] of a cell with [nf] faces *)
Definition face_reflect (info : N) (f : nat) : bool := N.testbit info (N.of_nat (3 * f)).
Definition face_rotations (info : N) (f : nat) : nat := N.to_nat (N.land (N.shiftr info (N.of_nat (3 * f + 1))) 3).
Definition edge_reflect (info : N) (nf e : nat) : bool := N.testbit info (N.of_nat (3 * nf + e)).

(** Number of faces that have fields: those of three-dimensional cells *)
Definition num_faces (t : cell_type) : nat :=
  if cell_dim t =? 3 then match cell_num_entities t 2 with Some n => n | None => 0 end else 0.
(** Local vertices of sub-entity [i] of dimension [d] *)
Definition sub_vertices (t : cell_type) (d i : nat) : list nat := nth i (nth d (topology t) []) [].

(** Connectivities as [compute_entities] leaves them: every row of the edge and face tables
    is the oriented vertex list of the entity, and the cells have distinct vertices whose
    global indices are below [bound]. *)
Record topo_ok (bound : Z) (T : topo) : Prop := {
  ok_types : t_num_types T <= 1;
  ok_cells : forall c cv, nth_error (t_cv T) c = Some cv ->
    exists g, omap (t_l2g T) cv = Some g /\ length g = num_cell_vertices (t_type T) /\ NoDup g /\
              Forall (fun v => (0 <= v < bound)%Z) g;
  ok_edges : 1 < cell_dim (t_type T) -> forall c cv, nth_error (t_cv T) c = Some cv ->
    exists row, nth_error (t_ce T) c = Some row /\
      forall e, e < length (nth 1 (topology (t_type T)) []) ->
        exists id el key, nth_error row e = Some id /\ nth_error (t_ev T) id = Some el /\
          build_entity (t_l2g T) Interval (sub_vertices (t_type T) 1 e) cv = Some (el, key);
  ok_face_types : NoDup (t_face_types T) /\ (forall ft, In ft (t_face_types T) -> ft = Triangle \/ ft = Quadrilateral);
  ok_faces : cell_dim (t_type T) = 3 -> forall i ft, nth_error (t_face_types T) i = Some ft ->
    exists cf fv, nth_error (t_cf T) i = Some cf /\ nth_error (t_fv T) i = Some fv /\
      forall c cv, nth_error (t_cv T) c = Some cv ->
        exists row, nth_error cf c = Some row /\ length row = length (face_type_indices (t_type T) ft) /\
          forall j f id, nth_error (face_type_indices (t_type T) ft) j = Some f -> nth_error row j = Some id ->
            exists el key, nth_error fv id = Some el /\
              build_entity (t_l2g T) ft (sub_vertices (t_type T) 2 f) cv = Some (el, key) }.
