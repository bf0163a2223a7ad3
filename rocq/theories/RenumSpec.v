(** What a renumbering of local dofs promises. *)
From Verif Require Import Base OrderingProofs DofBuilder.
Open Scope nat_scope.

(** [sizes]: number of owned entities for each index map.  A dof is owned by this rank if its
    entity is. *)
Definition dof_owned (sizes : list nat) (de : list (nat * nat)) (dof : nat) : Prop :=
  exists k x o, nth_error de dof = Some (k, x) /\ nth_error sizes k = Some o /\ x < o.
Definition renum_ok (sizes : list nat) (de : list (nat * nat)) (o2n : list nat) (owned : nat) : Prop :=
  Permutation o2n (seq 0 (length de)) /\
  forall dof v, nth_error o2n dof = Some v -> (v < owned <-> dof_owned sizes de dof).
(** Entities have an index map, cells have dofs that exist. *)
Definition renum_input (sizes : list nat) (de : list (nat * nat)) (dofmaps : list (list (list nat))) : Prop :=
  (forall k x, In (k, x) de -> k < length sizes) /\
  forall rows row dof, In rows dofmaps -> In row rows -> In dof row -> dof < length de.

(** An undirected graph without repeated edges *)
Definition graph_wf (g : list (list nat)) : Prop := symmetric g /\ forall row, In row g -> StronglySorted lt row.
(** A reordering function that returns a permutation *)
Definition reorder_wf (f : list (list nat) -> list nat) (n : nat) : Prop :=
  forall g, graph_wf g -> length g = n -> Permutation (f g) (seq 0 n).
(** Owned dofs with new numbers [i] and [j] are in two places of one cell. *)
Definition share_cell (o2c : list nat) (dofmaps : list (list (list nat))) (i j : nat) : Prop :=
  exists rows row a b da db, In rows dofmaps /\ In row rows /\ a <> b /\ nth_error row a = Some da /\ nth_error row b = Some db /\
    nth_error o2c da = Some i /\ nth_error o2c db = Some j.
