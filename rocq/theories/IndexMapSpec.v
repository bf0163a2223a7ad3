(** What a consistent set of index maps is. *)
From Verif Require Import Base IndexMap.

(** Global index [i] is in the range owned by [m]. *)
Definition owns (m : imap) (i : nat) : Prop := im_lo m <= i < im_hi m.

Record maps_ok (P : nat) (maps : nat -> imap) : Prop := {
  (* ranges follow each other *)
  mo_first : im_lo (maps 0) = 0;
  mo_next : forall r, S r < P -> im_lo (maps (S r)) = im_hi (maps r);
  mo_range : forall r, r < P -> im_lo (maps r) <= im_hi (maps r);
  mo_len : forall r, r < P -> length (im_owners (maps r)) = length (im_ghosts (maps r));
  (* a ghost is listed once and its owner is another rank that owns it *)
  mo_once : forall r, r < P -> NoDup (im_ghosts (maps r));
  mo_owner : forall r k g o, r < P -> nth_error (im_ghosts (maps r)) k = Some g ->
    nth_error (im_owners (maps r)) k = Some o -> o < P /\ o <> r /\ owns (maps o) g;
  (* neighbours: owners of my ghosts, ranks that ghost my indices *)
  mo_src : forall r, r < P -> StronglySorted lt (im_src (maps r)) /\
    forall s, In s (im_src (maps r)) <-> In s (im_owners (maps r));
  mo_dest : forall r, r < P -> StronglySorted lt (im_dest (maps r)) /\
    forall s, In s (im_dest (maps r)) <-> s < P /\ In r (im_owners (maps s))
}.

(** What the caller of the constructor must pass: ghosts owned by another rank, once. *)
Definition inputs_ok (P : nat) (local_size : nat -> nat) (ghosts owners : nat -> list nat) : Prop :=
  forall r, r < P ->
    length (owners r) = length (ghosts r) /\ NoDup (ghosts r) /\
    forall k g o, nth_error (ghosts r) k = Some g -> nth_error (owners r) k = Some o ->
      o < P /\ o <> r /\
      lsum (map local_size (seq 0 o)) <= g < lsum (map local_size (seq 0 (S o))).
