(** What the matrix product must give. *)
From Verif Require Import Base Algo IndexMap IndexMapSpec MatrixCSR MatrixSpec MatrixParSpec MatOpsSpec VectorOps.

Section Spec.
Context {T : Type}.
Variables (zero : T) (add mul : T -> T -> T).
Variables (P : nat) (A0 A1 B0 B1 : nat -> imap) (matsA matsB : nat -> csr T).

(** Entry (G, h) of the product of the global matrices. *)
Definition mat_product (G h : nat) : T :=
  tsum T zero add (map (fun g => mul (gmat zero P A0 A1 1 1 matsA G g 0 0) (gmat zero P B0 B1 1 1 matsB g h 0 0)) (seq 0 (global_size P A1))).

(** [(rm, cm, mats', offs')] is the product: rows as in A, columns as in B, strictly
    increasing columns in every row (part of [mats_ok]), owned columns first ([offs_ok]),
    and exactly the nonzero entries. *)
Definition is_product (rm cm : nat -> imap) (mats' : nat -> csr T) (offs' : nat -> list nat) : Prop :=
  maps_ok P rm /\ maps_ok P cm /\ same_ranges P rm A0 /\ same_ranges P cm B1 /\ no_ghosts P rm /\
  mats_ok P rm cm 1 1 mats' /\ offs_ok P rm cm offs' mats' /\
  (forall G h, stored P rm cm mats' G h <-> mat_product G h <> zero) /\
  (forall G h, gmat zero P rm cm 1 1 mats' G h 0 0 = mat_product G h).
End Spec.
