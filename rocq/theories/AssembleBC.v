(** Model of what assembler.h adds to the loops of assemble_matrix_impl.h: boundary
    conditions, the diagonal and lifting.
    Simplifications as in Assemble.v; of a function space the identifier of the root space
    and the component are kept, two spaces at one address have the same ones. *)
From Verif Require Import Base Algo MatrixCSR DirichletBC Assemble.
Open Scope nat_scope.

(** [FunctionSpace::_root_space_id] and [_component] *)
Record sid := mkSid { sd_root : nat; sd_comp : list nat }.
(** FunctionSpace.h:153-173; [list_beq] is [std::equal] on the leading components. *)
Fixpoint list_beq (a b : list nat) : bool :=
  match a, b with [], _ => true | x :: a, y :: b => (x =? y) && list_beq a b | _, _ => false end.
Definition contains (V W : sid) : bool :=
  if negb (sd_root V =? sd_root W) then false else
  if length (sd_comp W) <? length (sd_comp V) then false else list_beq (sd_comp V) (sd_comp W).

Section BC.
Context {T U : Type}.
Variables (zero one : T) (add mul sub : T -> T -> T) (eqb : T -> T -> bool).

(** [std::vector<std::int8_t>::resize(n, false)] *)
Definition resize (m : list bool) (n : nat) : list bool := firstn n m ++ repeat false (n - length m).
(** assembler.h:563-577, for one of the two spaces *)
Definition build_markers (V : sid) (dim : nat) (bcs : list (sid * bc T)) : option (list bool) :=
  ofold (fun m '(W, b) => if contains V W then mark_dofs b (resize m dim) else Some m) bcs [].
(** assembler.h:543-582.  [dim0], [dim1]: [bs * (size_local + num_ghosts)] *)
Definition assemble_matrix_bcs {St} (mat_add : St -> list nat -> list nat -> list T -> option St) (V0 V1 : sid) (dim0 dim1 : nat)
    (a : @form T U) (types : list ctype) (x : list U) (constants : list T) (cf : coefs) (bcs : list (sid * bc T)) (s : St) : option St :=
  m0 <- build_markers V0 dim0 bcs ;; m1 <- build_markers V1 dim1 bcs ;;
  assemble_matrix_impl zero mat_add false a types x constants cf m0 m1 s.

(** assembler.h:645-653 *)
Definition set_diagonal {St} (set_fn : St -> list nat -> list nat -> list T -> option St) (rows : list nat) (diagonal : T) (s : St) : option St :=
  ofold (fun s r => set_fn s [r] [r] [diagonal]) rows s.
(** assembler.h:672-686 *)
Definition set_diagonal_bcs {St} (set_fn : St -> list nat -> list nat -> list T -> option St) (V : sid) (bcs : list (sid * bc T)) (diagonal : T) (s : St) : option St :=
  ofold (fun s '(W, b) => if contains V W then let '(dofs, range) := dof_indices b in set_diagonal set_fn (firstn range dofs) diagonal s else Some s) bcs s.

(** The lambda [lifting_fn]: assemble_vector_impl.h:377-402.  [x0]: empty for zero. *)
Definition lifting_fn (bs0 bs1 : nat) (alpha : T) (values : list T) (markers : list bool) (x0 : list T) (b : list T) (rows cols : list nat) (Ae : list T) : option (list T) :=
  let nc := length cols * bs1 in
  ofold (fun b '(i, c) => ofold (fun b k =>
    let ii := c * bs1 + k in
    m <- nth_error markers ii ;;
    if (m : bool) then
      x_bc <- nth_error values ii ;;
      x0i <- match x0 with [] => Some zero | _ => nth_error x0 ii end ;;
      ofold (fun b '(j, r) => ofold (fun b m =>
        v <- nth_error Ae ((j * bs0 + m) * nc + (i * bs1 + k)) ;;
        apply_op (fun y w => sub y w) b (r * bs0 + m) (mul (mul v alpha) (sub x_bc x0i))) (seq 0 bs0) b) (enum rows) b
    else Some b) (seq 0 bs1) b) (enum cols) b.
(** assemble_vector_impl.h:363-414 *)
Definition lift_bc (bs0 bs1 : nat) (a : @form T U) (types : list ctype) (x : list U) (constants : list T) (cf : coefs)
    (values : list T) (markers : list bool) (x0 : list T) (alpha : T) (b : list T) : option (list T) :=
  assemble_matrix_impl zero (lifting_fn bs0 bs1 alpha values markers x0) true a types x constants cf [] markers b.
(** One bilinear form for [apply_lifting]: the form, what belongs to its cell types, its
    constants and coefficients, its block sizes and [crange]. *)
Record lform := mkLf { lf_form : @form T U; lf_types : list (@ctype T); lf_x : list U; lf_constants : list T; lf_coefs : @coefs T;
                       lf_bs0 : nat; lf_bs1 : nat; lf_crange : nat }.
(** assembler.h:394-400: markers and values of the boundary conditions *)
Definition bc_arrays (crange : nat) (bcs : list (bc T)) : option (list bool * list T) :=
  ofold (fun '(m, v) b => m' <- mark_dofs b m ;; v' <- bc_set zero mul sub eqb b v None one ;; Some (m', v')) bcs (repeat false crange, repeat zero crange).
(** The dispatch on the block sizes: assembler.h:402-418 *)
Definition by_bs2 {X} (bs0 bs1 : nat) (f : nat -> nat -> X) : X :=
  if (bs0 =? 1) && (bs1 =? 1) then f 1 1 else if (bs0 =? 3) && (bs1 =? 3) then f 3 3 else f bs0 bs1.
(** assembler.h:341-421 *)
Definition apply_lifting (a : list (option lform)) (bcs1 : list (list (bc T))) (x0 : list (list T)) (alpha : T) (b : list T) : option (list T) :=
  if forallb (fun ai => match ai with None => true | Some _ => false end) a then Some b else
  if match x0 with [] => false | _ => negb (length x0 =? length a) end then None else
  if negb (length a =? length bcs1) then None else
  ofold (fun b '(j, aj) =>
    bcs <- nth_error bcs1 j ;;
    match aj, bcs with
    | Some f, _ :: _ =>
      x0j <- match x0 with [] => Some [] | _ => nth_error x0 j end ;;
      '(markers, values) <- bc_arrays (lf_crange f) bcs ;;
      by_bs2 (lf_bs0 f) (lf_bs1 f) (fun bs0 bs1 => lift_bc bs0 bs1 (lf_form f) (lf_types f) (lf_x f) (lf_constants f) (lf_coefs f) values markers x0j alpha b)
    | _, _ => Some b
    end) (enum a) b.
(** The usual loop [for bc in bcs: bc.set(b, x0, alpha)] (cpp/dolfinx/fem/petsc.h:597-611, python/dolfinx/fem/petsc.py [set_bc]). *)
Definition set_bcs (bcs : list (bc T)) (x0 : option (list T)) (alpha : T) (b : list T) : option (list T) :=
  ofold (fun b c => bc_set zero mul sub eqb c b x0 alpha) bcs b.
End BC.
Arguments mkLf {T U}.
