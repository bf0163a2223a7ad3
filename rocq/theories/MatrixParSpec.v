(** What the operations on a distributed matrix must do. *)
From Verif Require Import Base Algo IndexMap IndexMapSpec MatrixCSR MatrixSpec VectorOps VectorSpec Sparsity.

Section Spec.
Context {T : Type}.
Variable zero : T.
Variables (P : nat) (maps0 maps1 : nat -> imap) (bs0 bs1 : nat).

(** A distributed matrix: on every rank the arrays are well formed, with a row for every
    row of the rank and columns of the rank; the columns of a ghost row are columns of
    that row on the owner of the row (this is what a finalised sparsity pattern gives). *)
Definition row_has (A : csr T) (i c : nat) : Prop := exists l, slice_at (mt_cols A) (mt_rp A) i = Some l /\ In c l.
Record mats_ok (mats : nat -> csr T) : Prop := {
  mk_csr : forall r, r < P -> csr_ok (mats r) /\ mt_bs0 (mats r) = bs0 /\ mt_bs1 (mats r) = bs1;
  mk_rows : forall r, r < P -> length (mt_rp (mats r)) = S (size_local (maps0 r) + num_ghosts (maps0 r));
  mk_cols : forall r c, r < P -> In c (mt_cols (mats r)) -> c < size_local (maps1 r) + num_ghosts (maps1 r);
  mk_ghost : forall q k G r c g, q < P -> nth_error (im_ghosts (maps0 q)) k = Some G -> r < P -> owns (maps0 r) G ->
    row_has (mats q) (size_local (maps0 q) + k) c -> local_to_global (maps1 q) c = Some g ->
    exists c', local_to_global (maps1 r) c' = Some g /\ row_has (mats r) (G - im_lo (maps0 r)) c' }.

(** Global column indices fit in a signed 32-bit integer. *)
Definition narrow_columns : Prop := forall r, r < P -> (Z.of_nat (im_hi (maps1 r)) <= 2147483648)%Z.

(** The value rank [q] stores for component (k0, k1) of the block at global row [G] and
    global column [g]; zero if it stores none. *)
Definition entry (mats : nat -> csr T) (q G g k0 k1 : nat) : T :=
  match index_in G (global_indices (maps0 q)), index_in g (global_indices (maps1 q)) with
  | Some i, Some c => dense zero (mats q) (i * bs0 + k0) (c * bs1 + k1)
  | _, _ => zero
  end.
End Spec.

Section Product.
Context {T : Type}.
Variables (zero : T) (add mul : T -> T -> T).
Variables (P : nat) (maps0 maps1 : nat -> imap) (bs0 bs1 : nat).

(** The off-diagonal offset of an owned row separates its owned from its ghost columns. *)
Definition offs_ok (offs : nat -> list nat) (mats : nat -> csr T) : Prop :=
  forall r, r < P -> size_local (maps0 r) <= length (offs r) /\
    forall i, i < size_local (maps0 r) -> exists a d b,
      nth_error (mt_rp (mats r)) i = Some a /\ nth_error (offs r) i = Some d /\ nth_error (mt_rp (mats r)) (S i) = Some b /\
      a <= d <= b /\ forall j c, a <= j < b -> nth_error (mt_cols (mats r)) j = Some c -> (j < d <-> c < size_local (maps1 r)).

(** Number of global indices. *)
Definition global_size (maps : nat -> imap) : nat := lsum (map (fun q => size_local (maps q)) (seq 0 P)).

(** The global matrix: what the owner of the row stores. *)
Definition gmat (mats : nat -> csr T) (G g k0 k1 : nat) : T :=
  match find (fun q => (im_lo (maps0 q) <=? G) && (G <? im_hi (maps0 q))) (seq 0 P) with
  | Some q => entry zero maps0 maps1 bs0 bs1 mats q G g k0 k1
  | None => zero
  end.

(** Component [k] of the global vector at index [g]. *)
Definition gvec (maps : nat -> imap) (bs : nat) (x : nat -> list T) (g k : nat) : T :=
  nth (bs * g + k) (global_vec P (mkVec T maps bs x)) zero.

(** Row (G, k0) of A x, and row (g, k1) of the transpose times x. *)
Definition product (mats : nat -> csr T) (x : nat -> list T) (G k0 : nat) : T :=
  tsum T zero add (map (fun g => tsum T zero add (map (fun k1 => mul (gmat mats G g k0 k1) (gvec maps1 bs1 x g k1)) (seq 0 bs1)))
                       (seq 0 (global_size maps1))).
Definition product_T (mats : nat -> csr T) (x : nat -> list T) (g k1 : nat) : T :=
  tsum T zero add (map (fun G => tsum T zero add (map (fun k0 => mul (gmat mats G g k0 k1) (gvec maps0 bs0 x G k0)) (seq 0 bs0)))
                       (seq 0 (global_size maps0))).
End Product.

(** Matrix [A] has the arrays a constructor makes for the finalised pattern of rank [p],
    apart from the values. *)
Definition of_pattern {T} (zero : T) (bs0 bs1 : nat) (A : csr T) (off : list nat) (p : pattern) : Prop :=
  exists f, pt_final p = Some f /\
    let '(B, o) := csr_compact zero bs0 bs1 (sp_edges f) (sp_offsets f) (sp_offdiag f) in
    mt_bs0 A = mt_bs0 B /\ mt_bs1 A = mt_bs1 B /\ mt_cols A = mt_cols B /\ mt_rp A = mt_rp B /\
    length (mt_data A) = length (mt_data B) /\ off = o.
