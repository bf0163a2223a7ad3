(** What is communicated when owned values are sent to the ranks that ghost them. *)
From Verif Require Import Base IndexMap.

(** The ghosts of rank [q] that rank [r] owns. *)
Definition ghosts_from (maps : nat -> imap) (r q : nat) : list nat :=
  filter (fun g => (im_lo (maps r) <=? g) && (g <? im_hi (maps r))) (im_ghosts (maps q)).

(** The ranks that ghost something of [r], in increasing order. *)
Definition receivers (P : nat) (maps : nat -> imap) (r : nat) : list nat :=
  filter (fun q => negb (q =? r) && negb (length (ghosts_from maps r q) =? 0)) (seq 0 P).

(** The edges that leave [r]: target, number of values, 1 if both share memory. *)
Definition edges_from (P : nat) (maps : nat -> imap) (node : nat -> nat) (r : nat) : list (nat * nat * nat) :=
  map (fun q => (q, length (ghosts_from maps r q), if node q =? node r then 1 else 0)) (receivers P maps r).
