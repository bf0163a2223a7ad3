(** Model of mesh::transfer_meshtags_to_submesh (cpp/dolfinx/mesh/utils.h:1501-1686).

    Simplifications: one rank (the function does not communicate); tag values are integers;
    tags are a list of pairs of an entity and a value; of the topologies only the numbers of
    entities and the connectivities are kept, [None] if they do not exist.  Exceptions and
    accesses outside arrays are [None]. *)
From Verif Require Import Base Algo SubMesh Tags.

(** std::ranges::all_of and a loop with [return], which stop at the first answer. *)
Fixpoint all_of {A} (f : A -> option bool) (l : list A) : option bool :=
  match l with
  | [] => Some true
  | a :: l' => b <- f a ;; if b then all_of f l' else Some false
  end.
Fixpoint search {A B} (f : A -> option (option B)) (l : list A) : option (option B) :=
  match l with
  | [] => Some None
  | a :: l' => b <- f a ;; match b with Some x => Some (Some x) | None => search f l' end
  end.

Section Find.
Variables (tag_dim submesh_tdim : nat) (parent_to_sub_cell : list (option nat)) (sub_to_parent_vertex : list nat).
Variables (sub_e_to_v sub_c_to_e e_to_v e_to_sub_cell : list (list nat)).

(** utils.h:1631-1647 *)
Definition entity_matches (entity_vertices : list nat) (sub_entity : nat) : option bool :=
  vs <- nth_error sub_e_to_v sub_entity ;;
  all_of (fun v => p_v <- nth_error sub_to_parent_vertex v ;; Some (existsb (Nat.eqb p_v) entity_vertices)) vs.
(** utils.h:1627-1653: the entities of one cell of the sub-mesh. *)
Definition search_cell (entity_vertices : list nat) (sub_cell : nat) : option (option nat) :=
  es <- nth_error sub_c_to_e sub_cell ;;
  search (fun s => b <- entity_matches entity_vertices s ;; Some (if b : bool then Some s else None)) es.
(** utils.h:1604-1656; [None] inside is -1. *)
Definition find_sub_entity (entity : nat) : option (option nat) :=
  if tag_dim =? submesh_tdim then nth_error parent_to_sub_cell entity
  else
    entity_vertices <- nth_error e_to_v entity ;;
    parent_sub_cells <- nth_error e_to_sub_cell entity ;;
    search (fun c => sc <- nth_error parent_to_sub_cell c ;;
      match sc with Some sub_cell => search_cell entity_vertices sub_cell | None => Some None end) parent_sub_cells.
End Find.

(** utils.h:1501-1686: [max_val] is the largest value of the type of tags. *)
Definition transfer_meshtags (max_val : Z) (tag_dim submesh_tdim : nat)
    (num_sub_cells num_parent_entities : option nat) (cell_map : list nat) (num_sub_vertices : nat) (vertex_map : list nat)
    (sub_e_to_v sub_c_to_e : option (list (list nat))) (num_sub_entities : option nat)
    (e_to_v e_to_sub_cell : option (list (list nat))) (tags : list (nat * Z)) : option (list (nat * Z)) :=
  if submesh_tdim <? tag_dim then None
  else
    nc <- num_sub_cells ;;
    sub_cell_to_parent_entity <- em_forward cell_map (seq 0 nc) ;;
    np <- num_parent_entities ;;
    parent_entity_to_sub_cell <- parent_to_sub np sub_cell_to_parent_entity ;;
    sub_to_parent_vertex <- em_forward vertex_map (seq 0 num_sub_vertices) ;;
    e_to_c <- (if tag_dim =? submesh_tdim then Some [] else e_to_sub_cell) ;;
    s_e_to_v <- sub_e_to_v ;;
    s_c_to_e <- sub_c_to_e ;;
    ne <- num_sub_entities ;;
    p_e_to_v <- e_to_v ;;
    values <- ofold (fun vals t =>
      s <- find_sub_entity tag_dim submesh_tdim parent_entity_to_sub_cell sub_to_parent_vertex s_e_to_v s_c_to_e p_e_to_v e_to_c (fst t) ;;
      match s with Some e => upd vals e (snd t) | None => Some vals end) tags (repeat max_val ne) ;;
    Some (filter (fun iv => negb (snd iv =? max_val)%Z) (combine (seq 0 ne) values)).
