(** Dense matrices: what insertion into a CSR matrix must do. *)
From Verif Require Import Base Algo MatrixCSR.

Section Dense.
Context {T : Type}.
Variable zero : T.

(** Well-formed arrays: the rows follow each other, columns are strictly increasing in a
    row and there is a block of values for every column entry. *)
Definition csr_ok (A : csr T) : Prop :=
  0 < mt_bs0 A /\ 0 < mt_bs1 A /\
  (exists rows, mt_cols A = concat rows /\ mt_rp A = psums (map (@length nat) rows) /\
                Forall (StronglySorted lt) rows) /\
  length (mt_data A) = length (mt_cols A) * mt_bs0 A * mt_bs1 A.

(** Scalar entry (I, J) is in the pattern: the block column is listed in the block row. *)
Definition in_pattern (A : csr T) (I J : nat) : Prop :=
  exists l, slice_at (mt_cols A) (mt_rp A) (I / mt_bs0 A) = Some l /\ In (J / mt_bs1 A) l.

(** The value at scalar row [I] and scalar (local) column [J]. *)
Definition dense (A : csr T) (I J : nat) : T :=
  match nth_error (mt_rp A) (I / mt_bs0 A), slice_at (mt_cols A) (mt_rp A) (I / mt_bs0 A) with
  | Some a, Some l =>
    match index_in (J / mt_bs1 A) l with
    | Some k => nth (((a + k) * mt_bs0 A + I mod mt_bs0 A) * mt_bs1 A + J mod mt_bs1 A) (mt_data A) zero
    | None => zero
    end
  | _, _ => zero
  end.

(** A call of add or set with a dense row-major array [c_x] of
    (rows * c_bs0) x (columns * c_bs1) values. *)
Record call := mkCall { c_add : bool; c_bs0 : nat; c_bs1 : nat; c_x : list T; c_rows : list nat; c_cols : list nat }.
Definition c_height (c : call) := length (c_rows c) * c_bs0 c.
Definition c_width (c : call) := length (c_cols c) * c_bs1 c.
(** The scalar row (column) that row [a] (column [b]) of the array goes to. *)
Definition c_row (c : call) (a : nat) : nat := nth (a / c_bs0 c) (c_rows c) 0 * c_bs0 c + a mod c_bs0 c.
Definition c_col (c : call) (b : nat) : nat := nth (b / c_bs1 c) (c_cols c) 0 * c_bs1 c + b mod c_bs1 c.
(** The values for scalar entry (I, J), in row-major order. *)
Definition contribs (c : call) (I J : nat) : list T :=
  concat (map (fun a => concat (map (fun b =>
      if (c_row c a =? I) && (c_col c b =? J) then [nth (a * c_width c + b) (c_x c) zero] else [])
    (seq 0 (c_width c)))) (seq 0 (c_height c))).

(** The same call on a dense matrix. *)
Definition dense_step (add : T -> T -> T) (D : nat -> nat -> T) (c : call) : nat -> nat -> T :=
  fun I J => fold_left (fun y v => if c_add c then add y v else v) (contribs c I J) (D I J).

(** The call has the right shape and supported block sizes, and its rows exist. *)
Definition call_shape (A : csr T) (c : call) : Prop :=
  0 < c_bs0 c /\ 0 < c_bs1 c /\ length (c_x c) = c_height c * c_width c /\
  (forall a, a < c_height c -> S (c_row c a / mt_bs0 A) < length (mt_rp A)) /\
  ((c_bs0 c = mt_bs0 A /\ c_bs1 c = mt_bs1 A) \/ (mt_bs0 A = 1 /\ mt_bs1 A = 1) \/ (c_bs0 c = 1 /\ c_bs1 c = 1)).
(** Every entry of the call is in the pattern. *)
Definition call_inside (A : csr T) (c : call) : Prop :=
  forall a b, a < c_height c -> b < c_width c -> in_pattern A (c_row c a) (c_col c b).

Definition mat_call (add : T -> T -> T) (A : csr T) (c : call) : option (csr T) :=
  if c_add c then mat_add add (c_bs0 c) (c_bs1 c) A (c_x c) (c_rows c) (c_cols c)
  else mat_set (c_bs0 c) (c_bs1 c) A (c_x c) (c_rows c) (c_cols c).
Definition mat_run (add : T -> T -> T) (calls : list call) (A : csr T) : option (csr T) :=
  ofold (mat_call add) calls A.
End Dense.
Global Arguments call : clear implicits.
