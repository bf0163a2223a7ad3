(** What transpose and matrix product must give. *)
From Verif Require Import Base Algo IndexMap IndexMapSpec MatrixCSR MatrixSpec MatrixParSpec.

Section Spec.
Context {T : Type}.
Variables (P : nat) (maps0 maps1 : nat -> imap).

(** Block (G, g) of the global matrix is stored by the owner of row [G]. *)
Definition stored (mats : nat -> csr T) (G g : nat) : Prop :=
  exists q i c, q < P /\ i < size_local (maps0 q) /\ im_lo (maps0 q) + i = G /\
    local_to_global (maps1 q) c = Some g /\ row_has (mats q) i c.
End Spec.

(** Two index map worlds own the same ranges. *)
Definition same_ranges (P : nat) (m m' : nat -> imap) : Prop :=
  forall r, r < P -> im_lo (m r) = im_lo (m' r) /\ im_hi (m r) = im_hi (m' r).
(** No ghosts on any rank. *)
Definition no_ghosts (P : nat) (m : nat -> imap) : Prop := forall r, r < P -> im_ghosts (m r) = [].

(** Either every rank has a neighbour in the index map or none has. *)
Definition uniform (P : nat) (m : nat -> imap) : Prop :=
  (forall r, r < P -> im_src (m r) = [] /\ im_dest (m r) = []) \/
  (forall r, r < P -> im_src (m r) <> [] \/ im_dest (m r) <> []).

(** [(rm, cm, mats', offs')] is the transpose of [(maps0, maps1, mats, offs)]. *)
Definition is_transpose {T} (zero : T) (P : nat) (maps0 maps1 : nat -> imap) (bs0 bs1 : nat) (mats : nat -> csr T)
    (rm cm : nat -> imap) (mats' : nat -> csr T) (offs' : nat -> list nat) : Prop :=
  maps_ok P rm /\ maps_ok P cm /\ same_ranges P rm maps1 /\ same_ranges P cm maps0 /\ no_ghosts P rm /\
  mats_ok P rm cm bs1 bs0 mats' /\ offs_ok P rm cm offs' mats' /\
  (forall G g, stored P rm cm mats' g G <-> stored P maps0 maps1 mats G g) /\
  (forall G g k0 k1, k0 < bs0 -> k1 < bs1 ->
     gmat zero P rm cm bs1 bs0 mats' g G k1 k0 = gmat zero P maps0 maps1 bs0 bs1 mats G g k0 k1).
