(** Specification of the numbering of stacked index maps. *)
From Verif Require Import Base IndexMap IndexMapSpec.

Notation world := (nat -> imap).

(** Entries of all maps on rank [q]. *)
Definition stack_local (Ms : list (world * nat)) (q : nat) : nat :=
  lsum (map (fun mb => snd mb * size_local (fst mb q)) Ms).

(** The stacked numbering: rank by rank, on a rank map by map, in a map index by index,
    for an index component by component.  [m] is the position of the map, [g] a global
    index of it owned by [o], [c] a component. *)
Definition stacked (Ms : list (world * nat)) (o m g c : nat) : nat :=
  match nth_error Ms m with
  | None => 0
  | Some (maps, bs) =>
    lsum (map (stack_local Ms) (seq 0 o)) + stack_local (firstn m Ms) o + bs * (g - im_lo (maps o)) + c
  end.

Definition stack_entry (P : nat) (Ms : list (world * nat)) (o m g c : nat) : Prop :=
  exists maps bs, nth_error Ms m = Some (maps, bs) /\ o < P /\ owns (maps o) g /\ c < bs.

(** The owner a marked index gets in a sub map: its owner if the owner marks it,
    otherwise the lowest rank that does. *)
Definition marks (maps : world) (indices : nat -> list nat) (q g : nat) : Prop :=
  exists i, In i (indices q) /\ local_to_global (maps q) i = Some g.
Definition new_owner (P : nat) (maps : world) (indices : nat -> list nat) (g o : nat) : Prop :=
  o < P /\ marks maps indices o g /\
  (owns (maps o) g \/
   (forall q, q < P -> owns (maps q) g -> ~ marks maps indices q g) /\
   (forall q, q < P -> marks maps indices q g -> o <= q)).
