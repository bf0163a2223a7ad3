(** Common vocabulary of the model: bounds-checked vectors, loops that may fail,
    prefix sums.  Models of C++ functions are written with these.

    A C++ [std::vector] is a [list]; reading is [nth_error] and writing is [upd];
    both give [None] for an out-of-bounds index, so that a model returning [Some]
    never performed an out-of-bounds access. *)
From Coq Require Export List Arith ZArith Lia Bool Permutation Sorted.
Export ListNotations.


(** Sequencing of computations that may fail. *)
Definition obind {A B} (o : option A) (f : A -> option B) : option B :=
  match o with Some a => f a | None => None end.
Notation "x <- e ;; f" := (obind e (fun x => f))
  (at level 61, e at next level, right associativity).
Notation "' p <- e ;; f" := (obind e (fun p => f))
  (at level 61, p pattern, e at next level, right associativity).

(** [for (auto& a : l) s = f(s, a)] where the body may fail. *)
Fixpoint ofold {S A} (f : S -> A -> option S) (l : list A) (s : S) : option S :=
  match l with
  | [] => Some s
  | a :: t => s' <- f s a ;; ofold f t s'
  end.

(** [std::transform] where the function may fail. *)
Fixpoint omap {A B} (f : A -> option B) (l : list A) : option (list B) :=
  match l with
  | [] => Some []
  | a :: t => b <- f a ;; bs <- omap f t ;; Some (b :: bs)
  end.

(** [l[i] = v] *)
Fixpoint upd {A} (l : list A) (i : nat) (v : A) : option (list A) :=
  match l, i with
  | [], _ => None
  | _ :: t, O => Some (v :: t)
  | x :: t, S j => t' <- upd t j v ;; Some (x :: t')
  end.

(** [l[i] = f(l[i])] *)
Definition modify {A} (l : list A) (i : nat) (f : A -> A) : option (list A) :=
  x <- nth_error l i ;; upd l i (f x).

(** [std::partial_sum(l.begin(), l.end(), std::next(offsets.begin()))] on
    [offsets(l.size() + 1, 0)]. *)
Fixpoint psums_from (a : nat) (l : list nat) : list nat :=
  match l with
  | [] => [a]
  | x :: t => a :: psums_from (a + x) t
  end.
Definition psums (l : list nat) : list nat := psums_from 0 l.

(** Sum of a list, [std::accumulate] / [std::reduce]. *)
Definition lsum (l : list nat) : nat := fold_right Nat.add 0 l.

(** Half-open slice [l[a..b)], a [std::span] over a vector; fails when the
    bounds are not inside the vector. *)
Definition slice {A} (l : list A) (a b : nat) : option (list A) :=
  if (a <=? b) && (b <=? length l) then Some (firstn (b - a) (skipn a l)) else None.

(** [offsets[i] .. offsets[i+1]] *)
Definition slice_at {A} (l : list A) (offs : list nat) (i : nat) : option (list A) :=
  a <- nth_error offs i ;; b <- nth_error offs (S i) ;; slice l a b.

(** [std::vector<T>(std::count(l, x))]-style count. *)
Fixpoint countb {A} (p : A -> bool) (l : list A) : nat :=
  match l with
  | [] => 0
  | x :: t => (if p x then 1 else 0) + countb p t
  end.

Global Arguments psums : simpl never.
Global Arguments lsum : simpl never.
Global Arguments slice : simpl never.
Global Arguments slice_at : simpl never.
Global Arguments modify : simpl never.

(** [num[k]++] for every key: [std::vector<int> num(n, 0); for (k : keys) num[k]++;] *)
Definition incr (l : list nat) (k : nat) : option (list nat) := modify l k S.
Definition count_keys (n : nat) (keys : list nat) : option (list nat) :=
  ofold incr keys (repeat 0 n).

(** [data[pos[k]++] = v] *)
Definition place {V} (st : list nat * list V) (kv : nat * V) : option (list nat * list V) :=
  let '(pos, data) := st in
  p <- nth_error pos (fst kv) ;;
  data' <- upd data p (snd kv) ;;
  pos' <- upd pos (fst kv) (S p) ;;
  Some (pos', data').

(** The values whose key is [k], in order of occurrence (specification). *)
Definition vals {V} (k : nat) (l : list (nat * V)) : list V :=
  map snd (filter (fun kv => fst kv =? k) l).

(** [std::unique] with predicate [e]: drops every element that is equivalent to the
    last element kept. *)
Fixpoint unique_from {A} (e : A -> A -> bool) (x : A) (l : list A) : list A :=
  match l with
  | [] => [x]
  | y :: t => if e x y then unique_from e x t else x :: unique_from e y t
  end.
Definition unique {A} (e : A -> A -> bool) (l : list A) : list A :=
  match l with [] => [] | x :: t => unique_from e x t end.
