(** Cells and coordinates of a mesh: what property C63 refers to. *)
From Verif Require Import Base.
Open Scope nat_scope.

(** The dofmap [dofs] numbers the nodes of the cells: the same number for the same node and
    only then, and no number below another is left out. *)
Definition numbers_nodes (dofs : list nat) (nodes : list Z) : Prop :=
  length dofs = length nodes /\
  (forall a b k l g h, nth_error dofs a = Some k -> nth_error dofs b = Some l ->
     nth_error nodes a = Some g -> nth_error nodes b = Some h -> (k = l <-> g = h)) /\
  (forall k l, In l dofs -> k < l -> In k dofs).

(** [l'] is [l] with entry j at place [remap[j]]. *)
Definition reordered {A} (remap : list nat) (l l' : list A) : Prop :=
  length l' = length l /\
  forall j k, nth_error remap j = Some k -> nth_error l' k = nth_error l j.

(** The dofmaps of the cell types, together, number the nodes of the cells. *)
Definition numbers_cells (dofmaps : list (list nat)) (cells : list (list Z)) : Prop :=
  Forall2 (fun d c => length d = length c) dofmaps cells /\ numbers_nodes (concat dofmaps) (concat cells).
