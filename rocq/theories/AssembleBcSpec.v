(** What boundary conditions prescribe, and when an assembled form fits a matrix. *)
From Verif Require Import Base Algo MatrixCSR MatrixSpec DirichletBC Assemble AssembleSpec AssembleBC.
Open Scope nat_scope.

Section Spec.
Context {T U : Type}.
Variables (zero : T) (mul sub : T -> T -> T).
(** Last position of [d] in [l]. *)
Fixpoint last_index (l : list nat) (d : nat) : option nat :=
  match l with
  | [] => None
  | y :: t => match last_index t d with Some k => Some (S k) | None => if y =? d then Some 0 else None end
  end.
(** The value that a boundary condition has at position [k] of its dofs. *)
Definition value_at (b : bc T) (k : nat) : option T :=
  match bc_g b with
  | GFun values => j <- nth_error (match bc_dofs1 b with [] => bc_dofs0 b | _ => bc_dofs1 b end) k ;; nth_error values j
  | GConst value => d <- nth_error (bc_dofs0 b) k ;; nth_error value (d mod sp_bs (bc_space b))
  end.
(** The value prescribed at [d]: the last boundary condition that contains [d] counts. *)
Definition prescribed (bcs : list (bc T)) (d : nat) : option T :=
  fold_left (fun r b => match last_index (bc_dofs0 b) d with Some k => value_at b k | None => r end) bcs None.
Definition constrained (bcs : list (bc T)) (d : nat) : bool := existsb (fun b => mem d (bc_dofs0 b)) bcs.
Definition constrained_owned (bcs : list (bc T)) (d : nat) : bool := existsb (fun b => mem d (firstn (bc_num_owned b) (bc_dofs0 b))) bcs.
(** Every boundary condition has values at all its dofs, and these are below [n]. *)
Definition bcs_ok (bcs : list (bc T)) (n : nat) : Prop :=
  forall b, In b bcs -> forall k d, nth_error (bc_dofs0 b) k = Some d -> d < n /\ value_at b k <> None.
(** An optional array, zero when absent. *)
Definition at0 (x0 : option (list T)) (d : nat) : T := match x0 with Some l => nth d l zero | None => zero end.
Definition long0 (x0 : option (list T)) (n : nat) : Prop := match x0 with Some l => n <= length l | None => True end.
(** alpha (g - x0), zero where nothing is prescribed *)
Definition increment (bcs : list (bc T)) (x0 : option (list T)) (alpha : T) (d : nat) : T :=
  match prescribed bcs d with Some g => mul alpha (sub g (at0 x0 d)) | None => zero end.
(** The boundary conditions on [V] or a subspace of it. *)
Definition on (V : sid) (bcs : list (sid * bc T)) : list (bc T) := map snd (filter (fun p => contains V (fst p)) bcs).

(** The form [a] can be assembled and has the blocks [bls]. *)
Definition has_blocks (bs0 bs1 : nat) (a : @form T U) (types : list (@ctype T)) (x : list U) (constants : list T) (cf : coefs) (bls : list mblock) : Prop :=
  0 < bs0 /\ 0 < bs1 /\ (forall ct, In ct types -> type_ok zero bs0 bs1 ct) /\ kernels_ok a /\ form_ok a (length types) /\
  form_mblocks zero a types x constants cf = Some bls.
(** The dofs of the blocks are in the range of the dimensions of the spaces. *)
Definition in_dims (bs0 bs1 dim0 dim1 : nat) (a : @form T U) (bls : list (@mblock T)) : Prop :=
  (forall bl, In bl bls -> (forall r, In r (fst (fst bl)) -> bs0 * r + bs0 <= dim0) /\ (forall c, In c (snd (fst bl)) -> bs1 * c + bs1 <= dim1)) /\
  (fm_int a <> [] -> bs0 <= dim0 /\ bs1 <= dim1).
(** The matrix takes blocks of this size and its pattern contains all of them. *)
Definition fits (A : csr T) (bs0 bs1 : nat) (bls : list (@mblock T)) : Prop :=
  csr_ok A /\ ((bs0 = mt_bs0 A /\ bs1 = mt_bs1 A) \/ (mt_bs0 A = 1 /\ mt_bs1 A = 1) \/ (bs0 = 1 /\ bs1 = 1)) /\
  forall bl r k, In bl bls -> In r (fst (fst bl)) -> k < bs0 -> S ((bs0 * r + k) / mt_bs0 A) < length (mt_rp A) /\
    forall c l, In c (snd (fst bl)) -> l < bs1 -> in_pattern A (bs0 * r + k) (bs1 * c + l).
(** The form [f] of a column of blocks and its boundary conditions can be used for lifting a
    vector with [n] entries. *)
Definition lift_ok (n : nat) (f : @lform T U) (bls : list mblock) (bcs : list (bc T)) (x0 : list T) : Prop :=
  has_blocks (lf_bs0 f) (lf_bs1 f) (lf_form f) (lf_types f) (lf_x f) (lf_constants f) (lf_coefs f) bls /\
  in_dims (lf_bs0 f) (lf_bs1 f) n (lf_crange f) (lf_form f) bls /\ bcs_ok bcs (lf_crange f) /\ (x0 = [] \/ lf_crange f <= length x0).
End Spec.
