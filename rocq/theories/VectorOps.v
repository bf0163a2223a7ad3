(** Model of the vector operations of cpp/dolfinx/la/Vector.h: inner_product, norm,
    orthonormalize, is_orthonormal.

    Simplifications: exact arithmetic over a type of scalars given with its operations
    (the code uses IEEE float/double and complex thereof); [std::reduce] and
    MPI_Allreduce sum in list and rank order.  A vector is the function giving each
    rank's local array. *)
From Verif Require Import Base Algo World IndexMap.

Section Inner.
Variables (T : Type) (zero : T) (add mul : T -> T -> T) (conj : T -> T).
Variable P : nat.

Definition tsum (l : list T) : T := fold_right add zero l.

(** A distributed vector: layout, block size, local arrays (Vector.h:407-414). *)
Record vec := mkVec { v_map : nat -> imap; v_bs : nat; v_x : nat -> list T }.
Definition local_size (v : vec) (r : nat) : nat := v_bs v * size_local (v_map v r).

(** Vector.h:438-451 *)
Definition inner_local (a b : vec) (r : nat) : option T :=
  if local_size a r =? local_size b r then
    xa <- slice (v_x a r) 0 (local_size a r) ;;
    xb <- slice (v_x b r) 0 (local_size a r) ;;
    Some (tsum (map (fun p => mul (conj (fst p)) (snd p)) (combine xa xb)))
  else None.

(** Vector.h:435-460: the value every rank gets; fails if a rank throws. *)
Definition inner_product (a b : vec) : option T :=
  locals <- omap (inner_local a b) (seq 0 P) ;;
  Some (tsum locals).
End Inner.

(** The norms.  [U] is the type of magnitudes with its zero, sum and comparison;
    [absv] and [normv] are [std::abs] and [std::norm]. *)
Section Norms.
Variables (T U : Type) (uzero : U) (uadd : U -> U -> U) (ultb : U -> U -> bool) (absv normv : T -> U).
Variable P : nat.

(** Vector.h:486-497 *)
Definition norm_l1 (x : vec T) : option U :=
  locals <- omap (fun r => l <- slice (v_x T x r) 0 (local_size T x r) ;;
                           Some (fold_left (fun n v => uadd n (absv v)) l uzero)) (seq 0 P) ;;
  Some (fold_right uadd uzero locals).

(** [std::max_element] with [norm(a) < norm(b)]: the first largest element; [None]
    stands for the end iterator. *)
Definition max_element (l : list T) : option T :=
  match l with
  | [] => None
  | a :: t => Some (fold_left (fun m v => if ultb (normv m) (normv v) then v else m) t a)
  end.

(** MPI_MAX *)
Definition umax (a b : U) : U := if ultb a b then b else a.

(** Vector.h:500-511: dereferencing the end iterator is [None]; the receive variable
    starts from 0 but MPI_Allreduce overwrites it. *)
Definition norm_linf (x : vec T) : option U :=
  locals <- omap (fun r => l <- slice (v_x T x r) 0 (local_size T x r) ;;
                           m <- max_element l ;; Some (absv m)) (seq 0 P) ;;
  match locals with
  | [] => None
  | a :: t => Some (fold_left umax t a)
  end.
End Norms.

Section Ortho.
Variables (T : Type) (zero : T) (add sub mul div : T -> T -> T) (conj sqrt : T -> T).
Variable small : T -> bool.     (* x < epsilon *)
Variable P : nat.
Notation vec := (vec T).
Notation inner := (inner_product T zero add mul conj P).

(** Vector.h:540-543: [bi <- bi - dot * bj] on the whole local arrays. *)
Definition axpy (dot : T) (bj bi : vec) : vec :=
  mkVec T (v_map T bi) (v_bs T bi)
        (fun r => map (fun p => sub (snd p) (mul dot (fst p))) (combine (v_x T bj r) (v_x T bi r))
                  ++ skipn (length (v_x T bj r)) (v_x T bi r)).

(** Vector.h:529-554, one vector against the ones before it. *)
Definition ortho_one (prev : list vec) (b : vec) : option vec :=
  b' <- ofold (fun bi bj => dot_ij <- inner bi bj ;; Some (axpy dot_ij bj bi)) prev b ;;
  n2 <- inner b' b' ;;
  let norm := sqrt n2 in
  if small (mul norm norm) then None
  else Some (mkVec T (v_map T b') (v_bs T b') (fun r => map (fun x => div x norm) (v_x T b' r))).

(** Vector.h:523-556; [None] for the exception. *)
Definition orthonormalize (basis : list vec) : option (list vec) :=
  ofold (fun acc b => b' <- ortho_one acc b ;; Some (acc ++ [b'])) basis [].

(** Vector.h:566-584; [far a] is [std::norm(a) > eps]. *)
Variable one : T.
Variable far : T -> bool.
Fixpoint is_orthonormal (basis : list vec) : option bool :=
  match basis with
  | [] => Some true
  | bi :: rest =>
    d <- inner bi bi ;;
    if far (sub one d) then Some false else
    ds <- omap (fun bj => inner bi bj) rest ;;
    if existsb (fun d => far (sub zero d)) ds then Some false else is_orthonormal rest
  end.
End Ortho.
