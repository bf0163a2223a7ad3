(** Model of cpp/dolfinx/common/sort.h and of [sort_unique]
    (cpp/dolfinx/common/utils.h). *)
From Verif Require Import Base.
From Coq Require Import NArith.
Open Scope N_scope.

(** Value of an unsigned [w]-bit type. *)
Definition wrapN (w x : N) : N := x mod 2 ^ w.

(** sort.h:26-48: signed [w]-bit to unsigned, flipping the sign bit of the two's
    complement representation. *)
Definition unsigned_projection (w : N) (e : Z) : N :=
  N.lxor (Z.to_N (e mod 2 ^ Z.of_N w)) (N.shiftl 1 (w - 1)).

(** [counter[k]++] in a [w]-bit unsigned counter. *)
Definition incrN (w : N) (l : list N) (k : nat) : option (list N) :=
  modify l k (fun c => wrapN w (c + 1)).

(** [std::exclusive_scan(counter, offset, I(0))] in [w]-bit arithmetic. *)
Fixpoint exscanN (w a : N) (l : list N) : list N :=
  match l with
  | [] => []
  | x :: t => a :: exscanN w (wrapN w (a + x)) t
  end.

(** sort.h:164-165: [next_perm[offset[bucket]++] = c] *)
Definition placeN {T} (w : N) (st : list N * list T) (kv : nat * T)
  : option (list N * list T) :=
  let '(offset, next) := st in
  p <- nth_error offset (fst kv) ;;
  next' <- upd next (N.to_nat p) (snd kv) ;;
  offset' <- upd offset (fst kv) (wrapN w (p + 1)) ;;
  Some (offset', next').

(** sort.h:136-141.  The fuel (bit width) is never exhausted when BITS >= 1. *)
Fixpoint num_its (fuel : nat) (bits max_value : N) : option nat :=
  if max_value =? 0 then Some O
  else match fuel with
       | O => None
       | S f => r <- num_its f bits (N.shiftr max_value bits) ;; Some (S r)
       end.

(** sort.h:117-129: maximum, "all elements have the top bit", histogram of pass 0. *)
Definition scan1 {T} (w mask : N) (proj : T -> N)
    (st : N * bool * list N) (e : T) : option (N * bool * list N) :=
  let '(max_value, all_first_bit, counter) := st in
  let v := proj e in
  counter' <- incrN w counter (N.to_nat (N.land v mask)) ;;
  Some (N.max max_value v,
        all_first_bit && negb (N.land v (N.shiftl 1 (w - 1)) =? 0),
        counter').

Record rstate (T : Type) := mkR {
  r_mem : list T * list T;       (* contents of [range] and [buffer] *)
  r_flip : bool;                 (* false: current_perm = range, true: = buffer *)
  r_mask : N; r_moff : N; r_counter : list N }.
Arguments mkR {T}. Arguments r_mem {T}. Arguments r_flip {T}. Arguments r_mask {T}.
Arguments r_moff {T}. Arguments r_counter {T}.

(** sort.h:156, 165: [(proj(c) & mask) >> mask_offset] *)
Definition bucket_of {T} (proj : T -> N) (mask moff : N) (c : T) : nat :=
  N.to_nat (N.shiftr (N.land (proj c) mask) moff).

(** sort.h:147-172: one pass. *)
Definition radix_pass {T} (w bits : N) (nbuckets : nat) (proj : T -> N)
    (st : rstate T) (i : nat) : option (rstate T) :=
  let current := if r_flip st then snd (r_mem st) else fst (r_mem st) in
  let next := if r_flip st then fst (r_mem st) else snd (r_mem st) in
  let bucket := bucket_of proj (r_mask st) (r_moff st) in
  counter <- (if (0 <? i)%nat
              then ofold (fun cn c => incrN w cn (bucket c)) current (repeat 0 nbuckets)
              else Some (r_counter st)) ;;
  let offset := exscanN w 0 counter in
  '(_, next') <- ofold (fun st c => placeN w st (bucket c, c)) current (offset, next) ;;
  Some (mkR (if r_flip st then (next', snd (r_mem st)) else (fst (r_mem st), next'))
            (negb (r_flip st))
            (wrapN w (N.shiftl (r_mask st) bits))
            (wrapN w (r_moff st + bits))
            counter).

(** sort.h:79-177 for a projection to an unsigned [w]-bit type.  The signed case
    (sort.h:94-99) composes the projection with [unsigned_projection].  The initial
    contents of [buffer] are irrelevant; the first element stands for it. *)
Definition radix_sort {T} (w bits : N) (proj : T -> N) (range : list T) : option (list T) :=
  match range with
  | [] => Some range
  | [_] => Some range
  | d :: _ =>
    let bucket_size := wrapN w (2 ^ bits) in
    let mask := wrapN w (2 ^ bits - 1) in
    let top_bit := N.shiftl 1 (w - 1) in
    '(max_value, all_first_bit, counter) <-
      ofold (scan1 w mask proj) range (0, true, repeat 0 (N.to_nat bucket_size)) ;;
    let max_value := if all_first_bit then N.ldiff max_value top_bit else max_value in
    its <- num_its (N.to_nat w) bits max_value ;;
    st <- ofold (radix_pass w bits (N.to_nat bucket_size) proj) (seq 0 its)
                (mkR (range, repeat d (length range)) false mask 0 counter) ;;
    Some (if Nat.even its then fst (r_mem st) else snd (r_mem st))
  end.

(** sort.h:79-99 for a signed [w]-bit projection. *)
Definition radix_sort_signed {T} (w bits : N) (proj : T -> Z) (range : list T) : option (list T) :=
  radix_sort w bits (fun e => unsigned_projection w (proj e)) range.

(** sort.h:199-231, signed [w]-bit entries; [perm] holds row indices.  Reading the
    column at an index outside the array is excluded by [perm] being a permutation of
    the row numbers; an out-of-range read in the copy loop is [None]. *)
Definition sort_by_perm (w bits : N) (x : list Z) (shape1 ncols : nat) : option (list nat) :=
  match x with
  | [] => Some []
  | _ =>
    let shape0 := (length x / shape1)%nat in
    ofold (fun perm i =>
             let col := (ncols - 1 - i)%nat in
             column <- omap (fun j => nth_error x (j * shape1 + col)%nat) (seq 0 shape0) ;;
             radix_sort_signed w bits (fun index => nth index column 0%Z) perm)
          (seq 0 ncols) (seq 0 shape0)
  end.

(** sort.h:249-272: column-major overload. *)
Definition sort_by_perm_cols (w bits : N) (x : list (list Z)) : option (list nat) :=
  match x with
  | [] => Some []
  | c0 :: _ =>
    ofold (fun perm i =>
             column <- nth_error x (length x - 1 - i)%nat ;;
             radix_sort_signed w bits (fun index => nth index column 0%Z) perm)
          (seq 0 (length x)) (seq 0 (length c0))
  end.

(** utils.h:34-66.  [srt] is [std::ranges::sort] on pairs. *)
Definition sort_unique (srt : list (Z * Z) -> list (Z * Z)) (indices values : list Z)
  : option (list Z * list Z) :=
  if negb (length indices =? length values)%nat then None
  else
    let data := srt (combine indices values) in
    let data := unique (fun a b => Z.eqb (fst a) (fst b)) data in
    Some (map fst data, map snd data).
