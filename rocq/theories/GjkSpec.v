(** Convex bodies and their points next to the origin. *)
From Coq Require Import Reals.
From Verif Require Import Base GenerationSpec Gjk.
Open Scope R_scope.

Definition combination (s : list vec) (l : list R) : vec := mkV (comb vx s l) (comb vy s l) (comb vz s l).
(** The convex body with corners in [s] *)
Definition hull (s : list vec) (y : vec) : Prop := exists l, simplex_weights (length s) l /\ y = combination s l.
(** The vectors from a point of the second body to one of the first *)
Definition difference (P Q : list vec) (y : vec) : Prop :=
  exists p q, hull P p /\ hull Q q /\ vx y = vx p - vx q /\ vy y = vy p - vy q /\ vz y = vz p - vz q.
Definition inner (a b : vec) : R := vx a * vx b + vy a * vy b + vz a * vz b.
(** Squared lengths *)
Definition norm2 (a : vec) : R := inner a a.
Definition apart2 (a b : vec) : R := (vx a - vx b) * (vx a - vx b) + (vy a - vy b) * (vy a - vy b) + (vz a - vz b) * (vz a - vz b).
Definition closest (B : vec -> Prop) (x : vec) : Prop := B x /\ forall y, B y -> norm2 x <= norm2 y.

(** The points are the vertices of an interval, triangle or tetrahedron. *)
Definition independent (s : list vec) : Prop :=
  forall c, length c = length s -> rsum c = 0 -> combination s c = mkV 0 0 0 -> forall a, In a c -> a = 0.
(** No point is the foot of the perpendicular from the origin to a line to another point. *)
Definition no_foot (s : list vec) : Prop := forall a b, In a s -> In b s -> a <> b -> inner a a <> inner a b.
(** The differences of corners *)
Definition corners (P Q : list vec) : list vec := concat (map (fun p => map (fun q => mkV (vx p - vx q) (vy p - vy q) (vz p - vz q)) Q) P).

(** The orders in which the steps of several threads can be carried out. *)
Inductive interleaving {A : Type} : list (list A) -> list A -> Prop :=
| no_step threads : (forall t, In t threads -> t = []) -> interleaving threads []
| one_step before x t after rest : interleaving (before ++ t :: after) rest -> interleaving (before ++ (x :: t) :: after) (x :: rest).
