(** Models of the standard-library algorithms used throughout the code base. *)
From Verif Require Import Base.

(** [std::ranges::sort] by a total order given as a boolean [leb].  Sorting functions
    are modelled by insertion sort: for a total (antisymmetric) order the sorted
    permutation is unique, so the algorithm does not matter. *)
Fixpoint insert {A} (leb : A -> A -> bool) (x : A) (l : list A) : list A :=
  match l with
  | [] => [x]
  | y :: t => if leb x y then x :: l else y :: insert leb x t
  end.
Definition isort {A} (leb : A -> A -> bool) (l : list A) : list A := fold_right (insert leb) [] l.

(** Lexicographic [operator<=] on [std::pair]. *)
Definition pair_leb (a b : nat * nat) : bool :=
  (fst a <? fst b) || ((fst a =? fst b) && (snd a <=? snd b)).

(** [std::ranges::sort(v); v.erase(std::ranges::unique(v)...)] *)
Definition sort_uniq (l : list nat) : list nat := unique Nat.eqb (isort Nat.leb l).
Definition pair_eqb (a b : nat * nat) : bool := (fst a =? fst b) && (snd a =? snd b).
Definition sort_uniq_pairs (l : list (nat * nat)) : list (nat * nat) := unique pair_eqb (isort pair_leb l).

(** [std::find_if(it, end, not p) - it] *)
Fixpoint prefix_len {A} (p : A -> bool) (l : list A) : nat :=
  match l with
  | [] => 0
  | x :: t => if p x then S (prefix_len p t) else 0
  end.

(** [std::ranges::lower_bound(l, x) - l.begin()] with a projection: the number of
    leading elements smaller than [x] ([l] is sorted at every call). *)
Definition lower_bound_by {A} (key : A -> nat) (l : list A) (x : nat) : nat :=
  prefix_len (fun y => key y <? x) l.
Definition lower_bound (l : list nat) (x : nat) : nat := lower_bound_by (fun y => y) l x.

(** [it = lower_bound(l, x); it != end and *it == x ? it - begin : none] *)
Definition find_sorted (l : list nat) (x : nat) : option nat :=
  let i := lower_bound l x in
  match nth_error l i with Some y => if y =? x then Some i else None | None => None end.

(** [std::ranges::find(l, x) - l.begin()], [None] for [end]. *)
Fixpoint index_in (x : nat) (l : list nat) : option nat :=
  match l with
  | [] => None
  | y :: t => if x =? y then Some 0 else i <- index_in x t ;; Some (S i)
  end.

(** [std::ranges::binary_search] on a sorted range. *)
Definition mem (x : nat) (l : list nat) : bool := existsb (Nat.eqb x) l.

(** Lengths of the runs of equal keys:
    [while (it != end) { it1 = find_if(it, end, key != key(it)); push_back(it1 - it); it = it1; }]
    (or the same with [upper_bound]).  The fuel is at least the length of the list. *)
Fixpoint runs {A} (fuel : nat) (key : A -> nat) (l : list A) : option (list nat) :=
  match l with
  | [] => Some []
  | x :: _ =>
    match fuel with
    | 0 => None
    | S f => let n := prefix_len (fun y => key y =? key x) l in
             rest <- runs f key (skipn n l) ;; Some (n :: rest)
    end
  end.

(** Pushing values to buckets: [v[k].push_back(x)] for a list of (bucket, value). *)
Definition push_back {A} (v : list (list A)) (k : nat) (x : A) : option (list (list A)) :=
  modify v k (fun b => b ++ [x]).
Definition push_all {A} (n : nat) (kvs : list (nat * A)) : option (list (list A)) :=
  ofold (fun v kv => push_back v (fst kv) (snd kv)) kvs (repeat [] n).
