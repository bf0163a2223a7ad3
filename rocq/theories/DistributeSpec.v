(** Nodes sent to other processes: what property C61 refers to. *)
From Verif Require Import Base.
Open Scope nat_scope.

(** Node [i] of rank [s] is the pair (s, i).  [destinations s] holds for each node of rank
    [s] the ranks it goes to, the owner first. *)
Section Spec.
Variables (P : nat) (destinations : nat -> list (list nat)).
(** Every node has an owner, and distinct destinations, all of them ranks. *)
Definition destinations_ok : Prop :=
  forall s di, s < P -> In di (destinations s) -> di <> [] /\ NoDup di /\ forall d, In d di -> d < P.
Definition node_order (a b : nat * nat) : Prop := fst a < fst b \/ (fst a = fst b /\ snd a < snd b).
(** [own]: the nodes that rank [r] owns; [gh]: the other nodes that go to rank [r]; both by
    rank and number, each node once. *)
Definition owned_nodes (r : nat) (own : list (nat * nat)) : Prop :=
  StronglySorted node_order own /\
  forall s i, In (s, i) own <-> s < P /\ exists di, nth_error (destinations s) i = Some di /\ hd_error di = Some r.
Definition ghost_nodes (r : nat) (gh : list (nat * nat)) : Prop :=
  StronglySorted node_order gh /\
  forall s i, In (s, i) gh <-> s < P /\ exists di, nth_error (destinations s) i = Some di /\ In r di /\ hd_error di <> Some r.
(** The number of a node when the nodes of all ranks are numbered rank by rank *)
Definition node_number (sizes : nat -> nat) (n : nat * nat) : Z :=
  Z.of_nat (lsum (map sizes (seq 0 (fst n))) + snd n).
End Spec.
