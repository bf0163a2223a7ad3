(** XDMF files: what properties C86 and C87 refer to. *)
From Verif Require Import Base.
Open Scope nat_scope.

(** The number of rows of the processes before [r] *)
Definition before (n : nat -> nat) (r : nat) : nat := list_sum (map n (seq 0 r)).
(** The data of all of [Q] processes, in the order of the processes *)
Definition gathered {A} (Q : nat) (read : nat -> list A) : list A := concat (map read (seq 0 Q)).

(** ** A distributed geometry *)
(** Node [i] of process [r] has global index [g]: owned nodes are numbered from those of the process before on. *)
Definition global_node (size_local : nat -> nat) (ghosts : nat -> list nat) (r i g : nat) : Prop :=
  (i < size_local r /\ g = before size_local r + i) \/ (size_local r <= i /\ nth_error (ghosts r) (i - size_local r) = Some g).
(** Every ghost is owned by another process, and the two have the same coordinates. *)
Definition ghosts_agree {U} (P : nat) (size_local : nat -> nat) (ghosts : nat -> list nat) (x : nat -> list U) : Prop :=
  forall r i g, r < P -> nth_error (ghosts r) i = Some g -> exists o j, o < P /\ j < size_local o /\ g = before size_local o + j /\
    forall k, k < 3 -> nth_error (x r) (3 * (size_local r + i) + k) = nth_error (x o) (3 * j + k).
(** Process [r] has [num_nodes] nodes, with coordinates, for the entity [e]. *)
Definition nodes_fit {U} (size_local : nat -> nat) (ghosts : nat -> list nat) (x : nat -> list U) (num_nodes : nat) (nodes : nat -> nat -> option (list nat)) (r e : nat) : Prop :=
  length (x r) = 3 * (size_local r + length (ghosts r)) /\
  exists ns, nodes r e = Some ns /\ length ns = num_nodes /\ forall n, In n ns -> n < size_local r + length (ghosts r).
(** Component [k] of the coordinates of a point in [gdim] dimensions *)
Definition coordinate {U} (zero : U) (gdim : nat) (x : list U) (n k : nat) : option U := if k <? gdim then nth_error x (3 * n + k) else Some zero.

(** ** A function *)
(** Component [j] of the values of a function with [bs] components at dof [d] *)
Definition dof_value {T} (zero : T) (bs : nat) (x : list T) (d j : nat) : option T := if j <? bs then nth_error x (bs * d + j) else Some zero.
(** A cell of the process has dof [d] where the mesh has node [n]. *)
Definition dof_at_node (num_cells : nat) (dofmap dofmap_x : list (list nat)) (d n : nat) : Prop :=
  exists c i dofs nodes, c < num_cells /\ nth_error dofmap c = Some dofs /\ nth_error dofmap_x c = Some nodes /\ nth_error dofs i = Some d /\ nth_error nodes i = Some n.
(** The dofs of the process, [bs] numbers for each, are in [x]; every cell has as many dofs as nodes. *)
Definition function_fits {T} (bs num_cells : nat) (dofmap dofmap_x : list (list nat)) (x : list T) : Prop :=
  forall c, c < num_cells -> exists dofs nodes, nth_error dofmap c = Some dofs /\ nth_error dofmap_x c = Some nodes /\ length dofs = length nodes /\
    forall d, In d dofs -> bs * d + bs <= length x.

(** ** Tags *)
(** [ns]: the nodes, in the first cell of the entity, of the closure of the entity *)
Definition closure_nodes (e_to_c c_to_e : list (list nat)) (entity_dofs : list (list nat)) (x_dofmap : list (list nat)) (e : nat) (ns : list nat) : Prop :=
  exists c cells es k dofs xdofs, nth_error e_to_c e = Some (c :: cells) /\ nth_error c_to_e c = Some es /\ NoDup es /\ nth_error es k = Some e /\
    nth_error entity_dofs k = Some dofs /\ nth_error x_dofmap c = Some xdofs /\ length ns = length dofs /\
    forall i d, nth_error dofs i = Some d -> d < length xdofs /\ nth_error ns i = nth_error xdofs d.
(** The number of tagged entities that the process owns *)
Definition tagged (num_owned : nat) (indices : list nat) : nat := length (filter (fun e => e <? num_owned) indices).
