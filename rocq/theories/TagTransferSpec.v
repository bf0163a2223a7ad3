(** Tags of a sub-mesh: what property C67 refers to. *)
From Verif Require Import Base.

(** Entity [s] of the sub-mesh has the vertices of entity [p] of the parent. *)
Definition same_entity (vertex_map : list nat) (sub_e_to_v e_to_v : list (list nat)) (s p : nat) : Prop :=
  exists vs ws, nth_error sub_e_to_v s = Some vs /\ nth_error e_to_v p = Some ws /\
    forall v, In v ws <-> exists w, In w vs /\ nth_error vertex_map w = Some v.

(** The parent mesh and a sub-mesh of it: [cell_map] and [vertex_map] are the parent entities and
    vertices; entities of dimension [tag_dim] are given by their vertices. *)
Section Input.
Variables (tag_dim submesh_tdim nc np nv ne : nat) (cell_map vertex_map : list nat) (sub_e_to_v sub_c_to_e e_to_v e_to_c : list (list nat)).
Notation same := (same_entity vertex_map sub_e_to_v e_to_v).
Record sub_of_parent : Prop := {
  so_cells : length cell_map = nc /\ NoDup cell_map /\ forall c, In c cell_map -> c < np;
  so_vertices : length vertex_map = nv /\ forall s vs v, nth_error sub_e_to_v s = Some vs -> In v vs -> v < nv;
  so_entities : length sub_e_to_v = ne /\ length sub_c_to_e = nc /\ forall c es s, nth_error sub_c_to_e c = Some es -> In s es -> s < ne;
  (* an entity is given by its vertices, and no other entity has some of them only *)
  so_sub : forall s s' p, same s p -> same s' p -> s = s';
  so_parent : forall s p p', same s p -> same s p' -> p = p';
  so_part : forall s p vs ws, nth_error sub_e_to_v s = Some vs -> nth_error e_to_v p = Some ws ->
    (forall w v, In w vs -> nth_error vertex_map w = Some v -> In v ws) -> same s p;
  (* cells of the sub-mesh are their parent entities *)
  so_cell : tag_dim = submesh_tdim -> length e_to_v = np /\ ne = nc /\ forall c p, nth_error cell_map c = Some p -> same c p;
  (* and have the same entities *)
  so_incident : tag_dim <> submesh_tdim -> length e_to_c = length e_to_v /\
    (forall p cs C, nth_error e_to_c p = Some cs -> In C cs -> C < np) /\
    (forall s p, same s p -> exists c C es cs, nth_error sub_c_to_e c = Some es /\ In s es /\ nth_error cell_map c = Some C /\ nth_error e_to_c p = Some cs /\ In C cs)
}.
End Input.
