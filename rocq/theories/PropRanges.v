(** Property C06. *)
From Verif Require Import Base Ranges RangesProofs.
Open Scope Z_scope.

(** C06: the ranges start at 0, follow each other and end at [N]. *)
Theorem C06_consecutive :
  forall N P, 0 < P -> 0 <= N ->
    fst (local_range 0 N P) = 0 /\
    (forall r, 0 <= r -> snd (local_range r N P) = fst (local_range (r + 1) N P)) /\
    snd (local_range (P - 1) N P) = N.
Proof.
  exact (fun N P HP HN => conj (local_range_first N P HP HN)
    (conj (fun r Hr => local_range_consecutive r N P HP HN Hr) (local_range_last N P HP HN))).
Qed.
Print Assumptions C06_consecutive.

(** C06: lengths differ by at most one. *)
Theorem C06_balanced :
  forall N P r, 0 < P -> 0 <= N ->
    N / P <= snd (local_range r N P) - fst (local_range r N P) <= N / P + 1.
Proof. exact (fun N P r => local_range_length r N P). Qed.
Print Assumptions C06_balanced.

(** C06: [index_owner] returns the one rank whose range holds the index. *)
Theorem C06_index_owner :
  forall P i N a, 0 < P -> 0 <= i < N ->
    index_owner P i N = Some a <->
    0 <= a < P /\ fst (local_range a N P) <= i < snd (local_range a N P).
Proof. exact index_owner_iff. Qed.
Print Assumptions C06_index_owner.

(** C06: there is such a rank for every index. *)
Theorem C06_index_owner_total :
  forall P i N, 0 < P -> 0 <= i < N ->
    exists r, index_owner P i N = Some r /\ 0 <= r < P /\
      fst (local_range r N P) <= i < snd (local_range r N P).
Proof. exact index_owner_spec. Qed.
Print Assumptions C06_index_owner_total.

Example C06_ex : map (fun r => local_range r 10 4) [0;1;2;3] = [(0,3);(3,6);(6,8);(8,10)] /\
  map (fun i => index_owner 4 i 10) [0;5;6;9] = [Some 0; Some 1; Some 2; Some 3] /\
  map (fun r => local_range r 2 4) [0;1;2;3] = [(0,1);(1,2);(2,2);(2,2)].
Proof. repeat split. Qed.
