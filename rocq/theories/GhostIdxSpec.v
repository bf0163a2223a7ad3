(** New global numbers of ghosts: what property C62 refers to. *)
From Verif Require Import Base.
Open Scope nat_scope.

(** Every index is owned by one process and listed there once; the owner given for a ghost
    is another process, and owns it. *)
Definition ghost_input_ok (P : nat) (owned ghosts : nat -> list Z) (owners : nat -> list nat) : Prop :=
  (forall q q' i i' g, q < P -> q' < P ->
     nth_error (owned q) i = Some g -> nth_error (owned q') i' = Some g -> q = q' /\ i = i') /\
  (forall r, r < P -> length (owners r) = length (ghosts r)) /\
  (forall r i g o, r < P -> nth_error (ghosts r) i = Some g -> nth_error (owners r) i = Some o ->
     o < P /\ o <> r /\ In g (owned o)).

(** Entry [k] of the indices owned by process [o] gets the number [new_number owned o k]: the
    indices are numbered process by process. *)
Definition new_number (owned : nat -> list Z) (o k : nat) : nat :=
  lsum (map (fun s => length (owned s)) (seq 0 o)) + k.
