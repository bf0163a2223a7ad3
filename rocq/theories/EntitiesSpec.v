(** Specification for C35: the entities of a mesh on one rank. *)
From Coq Require Import NArith.
From Verif Require Import Base Algo CellTypes Orient OrientSpec Entities.
Open Scope nat_scope.

(** Local vertices of the sub-entities of type [etype] and dimension [dim] of a reference cell *)
Definition cell_entities (etype : cell_type) (dim : nat) (t : cell_type) : list (list nat) :=
  map (sub_vertices t dim) (filter (fun e => cell_eqb (cell_entity_type t dim e) etype) (seq 0 (length (nth dim (topology t) [])))).
(** Every occurrence of an entity in a cell: its vertices, and whether the cell is owned.
    Lists of cells come in order, in each the cells, in each the sub-entities. *)
Definition list_instances (etype : cell_type) (dim : nat) (cl : cell_list) : list (list nat * bool) :=
  concat (map (fun cv => map (fun ev => (map (fun k => nth k (snd cv) 0) ev, fst cv <? cl_owned cl)) (cell_entities etype dim (cl_type cl)))
              (combine (seq 0 (length (cl_cells cl))) (cl_cells cl))).
Definition instances (etype : cell_type) (dim : nat) (lists : list cell_list) : list (list nat * bool) :=
  concat (map (list_instances etype dim) lists).

(** A cell list that a mesh may have: every cell has the right number of different vertices,
    all of them in the vertex map, and the owned cells come first. *)
Definition lists_ok (l2g : nat -> option Z) (dim : nat) (cl : cell_list) : Prop :=
  dim < cell_dim (cl_type cl) /\ cl_owned cl <= length (cl_cells cl) /\
  Forall (fun vs => length vs = num_cell_vertices (cl_type cl) /\ Forall (fun v => (Z.of_nat v < 2 ^ 31)%Z) vs /\
                    exists g, omap l2g vs = Some g /\ NoDup g) (cl_cells cl).

(** Lexicographic order of vertex rows *)
Fixpoint row_le (a b : list nat) : Prop :=
  match a, b with
  | [], _ => True
  | _ :: _, [] => False
  | x :: a', y :: b' => x < y \/ x = y /\ row_le a' b'
  end.
(** What the parallel sort guarantees: some order of the row numbers in which rows increase *)
Definition sorts_rows (tsort : list (list nat) -> list nat) : Prop :=
  forall keys, Permutation (seq 0 (length keys)) (tsort keys) /\
    StronglySorted (fun i j => row_le (nth i keys []) (nth j keys [])) (tsort keys).
