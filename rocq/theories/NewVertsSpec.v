(** The numbers and positions of the vertices of a refined mesh. *)
From Coq Require Import Reals.
From Verif Require Import Base IndexMap IndexMapSpec LocateSpec MarkingSpec.
Open Scope nat_scope.

Section Numbers.
Variables (emaps vmaps : nat -> imap) (marks : nat -> list bool).
Definition is_marked (r e : nat) : bool := nth e (marks r) false.
(** Owned edges of rank [r] before edge [e] that are marked *)
Definition marked_before (r e : nat) : nat := length (filter (is_marked r) (seq 0 e)).
(** Vertices that rank [r] owns in the new mesh *)
Definition new_size (r : nat) : nat := size_local (vmaps r) + marked_before r (size_local (emaps r)).
(** The new vertices are numbered rank by rank; on a rank the old vertices first, in their
    order, and then the new ones, in the order of their edges.  [old_number r i] is the number
    of the [i]-th vertex owned by rank [r], [new_number r e] that of the vertex on the owned
    edge [e] of rank [r]. *)
Definition old_number (r i : nat) : nat := lsum (map new_size (seq 0 r)) + i.
Definition new_number (r e : nat) : nat := lsum (map new_size (seq 0 r)) + size_local (vmaps r) + marked_before r e.
End Numbers.

(** The marks have the right lengths and all ranks agree on shared edges. *)
Definition marks_ok (P : nat) (emaps : nat -> imap) (marks : nat -> list bool) : Prop :=
  (forall r, r < P -> length (marks r) = edge_count (emaps r)) /\
  agreed P emaps (fun r e => nth_error (marks r) e = Some true).

(** Vertex [v] is at node [d]. *)
Definition vertex_node (xdofs c_to_v : list (list nat)) (vertex_pos : list nat) (v d : nat) : Prop :=
  exists c vs ds i p, nth_error c_to_v c = Some vs /\ nth_error xdofs c = Some ds /\ nth_error vs i = Some v /\ nth_error vertex_pos i = Some p /\ nth_error ds p = Some d.
(** Coordinate [j] of node [d] *)
Definition xcoord (x : list R) (d j : nat) : R := nth (3 * d + j) x 0%R.
Definition mean (l : list R) : R := (fold_right Rplus 0 l / INR (length l))%R.

(** The children of a cell with vertices [a] and [b], and [c] between them *)
Definition halves (marked : bool) (a b c : nat) : list (nat * nat) := if marked then [(a, c); (c, b)] else [(a, b)].
(** Vertex [v] of rank [r] has the number [n] in the new mesh. *)
Definition vertex_number (P : nat) (emaps vmaps : nat -> imap) (marks : nat -> list bool) (r v n : nat) : Prop :=
  exists g o, at_global (vmaps r) v g /\ o < P /\ owns (vmaps o) g /\ n = old_number emaps vmaps marks o (g - im_lo (vmaps o)).
