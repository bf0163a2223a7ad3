(** What "stable sort" means. *)
From Verif Require Import Base.

(** [r] is [l] sorted by [key], elements with equal keys in their original order. *)
Definition stable_sort_of {T K} (le : K -> K -> Prop) (key : T -> K) (l r : list T) : Prop :=
  Permutation l r /\
  StronglySorted (fun a b => le (key a) (key b)) r /\
  (forall (p : T -> bool),
      (forall a b, In a l -> In b l -> p a = true -> p b = true -> key a = key b) ->
      filter p r = filter p l).

(** Lexicographic comparison of equally long rows. *)
Fixpoint lex_le (a b : list Z) : Prop :=
  match a, b with
  | [], _ => True
  | _ :: _, [] => False
  | x :: a', y :: b' => (x < y)%Z \/ (x = y /\ lex_le a' b')
  end.

Definition row (x : list Z) (shape1 ncols j : nat) : list Z :=
  map (fun k => nth (j * shape1 + k) x 0%Z) (seq 0 ncols).

(** Representable in a signed [w]-bit type. *)
Definition in_signed (w : N) (e : Z) : Prop := (- 2 ^ Z.of_N (w - 1)%N <= e < 2 ^ Z.of_N (w - 1)%N)%Z.

(** Order of [std::pair]. *)
Definition pair_le (a b : Z * Z) : Prop := (fst a < fst b \/ fst a = fst b /\ snd a <= snd b)%Z.
