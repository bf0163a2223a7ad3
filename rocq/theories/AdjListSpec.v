(** Specification vocabulary for adjacency lists and transposed connectivity. *)
From Verif Require Import Base AdjList.

(** The adjacency list stores exactly these rows. *)
Definition stores {A} (l : adjlist A) (rows : list (list A)) : Prop :=
  num_nodes l = length rows /\
  (forall i row, nth_error rows i = Some row -> links l i = Some row) /\
  (forall i, length rows <= i -> links l i = None).

(** The row of [v] in the transposed relation: every source [e] as often as [v] occurs
    in the row of [e], sources in increasing order. *)
Definition transposed_row (rows : list (list nat)) (v : nat) : list nat :=
  concat (map (fun e => repeat e (count_occ Nat.eq_dec (nth e rows []) v))
              (seq 0 (length rows))).

(** The positions at which a value occurs. *)
Definition positions (d : list nat) (v : nat) : list nat :=
  filter (fun p => match nth_error d p with Some x => x =? v | None => false end)
         (seq 0 (length d)).

Definition all_below (n : nat) (rows : list (list nat)) : Prop :=
  forall row x, In row rows -> In x row -> x < n.
