(** Ownership of points: what property C68 refers to. *)
From Verif Require Import Base.

Section Spec.
Variables (A : Type) (box_ranks : nat -> A -> list nat) (candidates : nat -> A -> list nat) (dist2 : nat -> nat -> A -> Z) (tol max_val : Z).

(** A cell of rank [q] contains the point, up to the tolerance. *)
Definition collides (q : nat) (x : A) : Prop := exists c, In c (candidates q x) /\ (dist2 q c x < tol)%Z.
(** Point [x] of rank [r] is given to [q] (cell [c]): the first rank with a cell that contains the point, and
    there the first such cell; if there is none, the closest cell, the first rank and the first
    cell in case of a tie. *)
Definition given_to (r : nat) (x : A) (q c : nat) : Prop :=
  In q (box_ranks r x) /\
  exists before after, candidates q x = before ++ c :: after /\
  ( (dist2 q c x < tol)%Z /\ (forall b, In b before -> (tol <= dist2 q b x)%Z) /\
    (forall p, In p (box_ranks r x) -> collides p x -> q <= p)
  \/
    (forall p, In p (box_ranks r x) -> ~ collides p x) /\ (dist2 q c x < max_val)%Z /\
    (forall b, In b before -> (dist2 q c x < dist2 q b x)%Z) /\
    (forall p b, In p (box_ranks r x) -> In b (candidates p x) -> (dist2 q c x <= dist2 p b x)%Z /\ (dist2 q c x = dist2 p b x -> q <= p)) ).
(** No rank has a cell for the point. *)
Definition given_to_none (r : nat) (x : A) : Prop :=
  forall p b, In p (box_ranks r x) -> In b (candidates p x) -> (max_val <= dist2 p b x)%Z.

(** What a rank gets: its points of rank 0, of rank 1, ... in their order. *)
Definition points_for (P : nat) (points : nat -> list A) (owners : nat -> list (option nat)) (q : nat) : list (nat * A) :=
  concat (map (fun r => map (fun xo => (r, fst xo))
                            (filter (fun xo => match snd xo with Some o => o =? q | None => false end) (combine (points r) (owners r)))) (seq 0 P)).
End Spec.
