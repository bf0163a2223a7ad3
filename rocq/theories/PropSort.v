(** Properties C03, C04 and C05. *)
From Verif Require Import Base Sort SortSpec SortProofs.
From Coq Require Import NArith.
Open Scope N_scope.

(** C03, unsigned [w]-bit keys, [bits]-bit digits. *)
Theorem C03_radix_sort :
  forall T w bits (proj : T -> N) (range : list T),
    0 < bits -> bits < w ->
    (forall x, In x range -> proj x < 2 ^ w) -> N.of_nat (length range) < 2 ^ w ->
    exists r, radix_sort w bits proj range = Some r /\ stable_sort_of N.le proj range r.
Proof. exact @radix_sort_correct. Qed.
Print Assumptions C03_radix_sort.

Example C03_ex : radix_sort 8 3 fst [(200, 0); (7, 1); (200, 2); (255, 3); (0, 4); (7, 5)]
  = Some [(0, 4); (7, 1); (7, 5); (200, 0); (200, 2); (255, 3)].
Proof. reflexivity. Qed.

(** C03, signed [w]-bit keys. *)
Theorem C03_radix_sort_signed :
  forall T w bits (proj : T -> Z) (range : list T),
    0 < bits -> bits < w ->
    (forall x, In x range -> in_signed w (proj x)) -> N.of_nat (length range) < 2 ^ w ->
    exists r, radix_sort_signed w bits proj range = Some r /\ stable_sort_of Z.le proj range r.
Proof. exact @radix_sort_signed_correct. Qed.
Print Assumptions C03_radix_sort_signed.

Example C03_signed_ex :
  radix_sort_signed 32 8 (fun z => z) [5; -3; 1000000; -2147483648; 0; 2147483647; -3]%Z
  = Some [-2147483648; -3; -3; 0; 5; 1000000; 2147483647]%Z.
Proof. vm_compute. reflexivity. Qed.

(** C03: with a digit as wide as the key (the default digit width 8 with [uint8_t]
    keys) the bucket array has length zero and the sort writes outside it. *)
Theorem C03_digit_as_wide_as_key_refuted :
  radix_sort 8 8 (fun x => x) [2; 1] = None /\
  radix_sort_signed 16 16 (fun x => x) [2; 1]%Z = None.
Proof. split; vm_compute; reflexivity. Qed.
Print Assumptions C03_digit_as_wide_as_key_refuted.

(** C03: the bound on the length is needed.  256 elements with 8-bit keys: the counter
    of the bucket they share wraps to zero. *)
Theorem C03_counter_overflow_refuted :
  match radix_sort 8 4 (fun x => x) (repeat 16 255 ++ [0; 16]) with
  | Some r => ~ Permutation r (repeat 16 255 ++ [0; 16])
  | None => True
  end.
Proof. exact radix_overflow. Qed.
Print Assumptions C03_counter_overflow_refuted.

(** C04: rows of a row-major array, sorted by the leading [ncols] columns. *)
Theorem C04_sort_by_perm :
  forall w bits x shape1 ncols nrows,
    0 < bits -> bits < w -> N.of_nat nrows < 2 ^ w ->
    length x = (nrows * shape1)%nat -> (0 < shape1)%nat -> (ncols <= shape1)%nat ->
    Forall (in_signed w) x ->
    exists perm, sort_by_perm w bits x shape1 ncols = Some perm /\
      stable_sort_of lex_le (row x shape1 ncols) (seq 0 nrows) perm.
Proof. exact sort_by_perm_correct. Qed.
Print Assumptions C04_sort_by_perm.

Example C04_ex : sort_by_perm 32 16 [2;-1;9;  0;5;8;  2;-7;7;  0;5;6]%Z 3 2 = Some [1;3;2;0]%nat.
Proof. vm_compute. reflexivity. Qed.

(** C04: the overload taking columns. *)
Theorem C04_sort_by_perm_columns :
  forall w bits (cols : list (list Z)) nrows,
    0 < bits -> bits < w -> N.of_nat nrows < 2 ^ w -> cols <> [] ->
    Forall (fun c => length c = nrows /\ Forall (in_signed w) c) cols ->
    exists perm, sort_by_perm_cols w bits cols = Some perm /\
      stable_sort_of lex_le (fun j => map (fun c => nth j c 0%Z) cols) (seq 0 nrows) perm.
Proof. exact sort_by_perm_cols_correct. Qed.
Print Assumptions C04_sort_by_perm_columns.

Example C04_columns_ex : sort_by_perm_cols 64 16 [[2;0;2;0]; [-1;5;-7;5]]%Z = Some [1;3;2;0]%nat.
Proof. vm_compute. reflexivity. Qed.

(** C04: the documentation of the column overload promises [x[k][perm[i]] <=
    x[k][perm[i+1]]] for every column [k]; that holds of the first column only. *)
Theorem C04_columns_doc_refuted :
  exists perm a b, sort_by_perm_cols 64 16 [[0;1]; [1;0]]%Z = Some perm /\
    nth_error perm 0 = Some a /\ nth_error perm 1 = Some b /\
    (nth b [1;0] 0 < nth a [1;0] 0)%Z.
Proof. exact columns_doc. Qed.
Print Assumptions C04_columns_doc_refuted.

(** C05 *)
Theorem C05_sort_unique :
  forall srt indices values,
    (forall l, Permutation l (srt l) /\ StronglySorted pair_le (srt l)) ->
    length indices = length values ->
    exists is vs, sort_unique srt indices values = Some (is, vs) /\
      length is = length vs /\
      StronglySorted Z.lt is /\
      (forall i, In i is <-> In i indices) /\
      (forall i v, In (i, v) (combine is vs) ->
         In (i, v) (combine indices values) /\
         forall v', In (i, v') (combine indices values) -> (v <= v')%Z).
Proof. exact sort_unique_correct. Qed.
Print Assumptions C05_sort_unique.

(** An implementation of the sort meets the hypothesis. *)
Example C05_sort_exists : forall l, Permutation l (ins_pairs l) /\ StronglySorted pair_le (ins_pairs l).
Proof. exact ins_pairs_sorts. Qed.
Example C05_ex : sort_unique ins_pairs [3;1;3;2;1]%Z [7;8;5;0;9]%Z = Some ([1;2;3], [8;0;5])%Z.
Proof. reflexivity. Qed.

Theorem C05_sort_unique_throws :
  forall srt indices values,
    length indices <> length values -> sort_unique srt indices values = None.
Proof. exact sort_unique_throws. Qed.
Print Assumptions C05_sort_unique_throws.
