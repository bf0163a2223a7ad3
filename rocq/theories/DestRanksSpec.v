(** Where the nodes of a distributed graph go. *)
From Verif Require Import Base.
Open Scope nat_scope.

(** A way to list the elements of a set *)
Definition lists_set {A} (f : list A -> list A) : Prop := forall l, NoDup (f l) /\ forall x, In x (f l) <-> In x l.

Section Graph.
(** The links of the nodes of every rank, and the destination of every node; the nodes of rank
    0 are numbered first. *)
Variables (P : nat) (graph : nat -> list (list nat)) (part : nat -> list nat).
Definition first_node (r : nat) : nat := lsum (map (fun q => length (graph q)) (seq 0 r)).
Definition linked (g h : nat) : Prop :=
  exists r i links, r < P /\ g = first_node r + i /\ nth_error (graph r) i = Some links /\ In h links.
Definition goes_to (g d : nat) : Prop :=
  exists r i, r < P /\ i < length (graph r) /\ g = first_node r + i /\ nth_error (part r) i = Some d.
End Graph.
