(** Specification vocabulary for distributed vectors. *)
From Verif Require Import Base Algo IndexMap VectorOps.

(** Every rank's array holds its owned entries then its ghosts, [bs] values per index. *)
Definition full_size {T} (P : nat) (maps : nat -> imap) (bs : nat) (x : nat -> list T) : Prop :=
  forall r, r < P -> length (x r) = bs * (size_local (maps r) + num_ghosts (maps r)).

(** The value component [j] of global index [g] has on rank [q], if [g] is a ghost there. *)
Definition ghost_copy {T} (maps : nat -> imap) (bs : nat) (dflt : T) (x : nat -> list T) (g j q : nat) : list T :=
  match index_in g (im_ghosts (maps q)) with
  | Some k => [nth (bs * (size_local (maps q) + k) + j) (x q) dflt]
  | None => []
  end.
(** ... on all ranks, in rank order. *)
Definition ghost_copies {T} (P : nat) maps bs (dflt : T) x (g j : nat) : list T :=
  concat (map (ghost_copy maps bs dflt x g j) (seq 0 P)).

(** The global vector: owned parts in rank order. *)
Definition global_vec {T} (P : nat) (v : vec T) : list T :=
  concat (map (fun q => firstn (local_size T v q) (v_x T v q)) (seq 0 P)).

Definition sized {T} (P : nat) (v : vec T) : Prop :=
  forall r, r < P -> local_size T v r <= length (v_x T v r).

(** Vectors with the same parallel layout. *)
Definition alike {T} (P : nat) (a b : vec T) : Prop :=
  v_bs T a = v_bs T b /\ (forall r, r < P -> size_local (v_map T a r) = size_local (v_map T b r)) /\
  (forall r, r < P -> length (v_x T a r) = length (v_x T b r)).

Section Ring.
Variables (T : Type) (zero : T) (add mul : T -> T -> T) (conj : T -> T).

(** Sum of [conj a_i * b_i] over two lists. *)
Definition dot (a b : list T) : T :=
  tsum T zero add (map (fun p => mul (conj (fst p)) (snd p)) (combine a b)).

(** ... over the first [n] entries. *)
Definition sdot (n : nat) (a b : list T) : T :=
  tsum T zero add (map (fun i => mul (conj (nth i a zero)) (nth i b zero)) (seq 0 n)).

(** Sum over ranks. *)
Definition total (P : nat) (f : nat -> T) : T := tsum T zero add (map f (seq 0 P)).
End Ring.
