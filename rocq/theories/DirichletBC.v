(** Model of the class [DirichletBC] (cpp/dolfinx/fem/DirichletBC.h:257-618).
    Simplifications: of the function space only the block size of the dofmap, the block size
    and the owned size of its index map, the rank of the value shape and whether the element
    is a point-evaluation element are kept; scalars are exact; the array of a [Function] or
    [Constant] is read when [set] is called, so it is part of [bcg]. *)
From Verif Require Import Base Algo.
Open Scope nat_scope.

(** The variant [_g]: the array of a function, or the values of a constant. *)
Inductive bcg (T : Type) := GFun (values : list T) | GConst (value : list T).
Arguments GFun {T}. Arguments GConst {T}.
Record space := mkSpace { sp_bs : nat; sp_index_bs : nat; sp_owned : nat; sp_rank : nat; sp_point_eval : bool }.
Record bc (T : Type) := mkBC { bc_space : space; bc_g : bcg T; bc_dofs0 : list nat; bc_dofs1 : list nat; bc_num_owned : nat }.
Arguments mkBC {T}. Arguments bc_space {T}. Arguments bc_g {T}. Arguments bc_dofs0 {T}. Arguments bc_dofs1 {T}. Arguments bc_num_owned {T}.

(** DirichletBC.h:262-270 *)
Definition num_owned (s : space) (dofs : list nat) : nat := lower_bound dofs (sp_index_bs s * sp_owned s).
(** DirichletBC.h:272-281 *)
Definition unroll_dofs (dofs : list nat) (bs : nat) : option (list nat) :=
  ofold (fun out i => ofold (fun out k => d <- nth_error dofs i ;; upd out (bs * i + k) (bs * d + k)) (seq 0 bs) out)
        (seq 0 (length dofs)) (repeat 0 (bs * length dofs)).
Definition unroll_if (dofs : list nat) (bs : nat) : option (list nat) := if 1 <? bs then unroll_dofs dofs bs else Some dofs.

(** DirichletBC.h:325-360; [rank] is the rank of the constant. *)
Definition bc_const {T} (rank : nat) (value : list T) (dofs : list nat) (V : space) : option (bc T) :=
  if negb (rank =? sp_rank V) then None else
  if negb (length value =? sp_bs V) then None else
  if negb (sp_point_eval V) then None else
  d <- unroll_if dofs (sp_bs V) ;; Some (mkBC V (GConst value) d [] (num_owned V d)).
(** DirichletBC.h:375-390 *)
Definition bc_fun {T} (values : list T) (dofs : list nat) (V : space) : option (bc T) :=
  d <- unroll_if dofs (sp_bs V) ;; Some (mkBC V (GFun values) d [] (num_owned V d)).
(** DirichletBC.h:412-423 *)
Definition bc_pair {T} (values : list T) (dofs0 dofs1 : list nat) (V : space) : bc T :=
  mkBC V (GFun values) dofs0 dofs1 (num_owned V dofs0).
(** DirichletBC.h:465-468 *)
Definition dof_indices {T} (b : bc T) : list nat * nat := (bc_dofs0 b, bc_num_owned b).

Section Set_.
Context {T : Type}.
Variables (zero : T) (mul sub : T -> T -> T) (eqb : T -> T -> bool).
(** DirichletBC.h:500-512: the lambda [apply] *)
Definition bc_apply (b : bc T) (x : list T) (set_fn : nat -> option T) : option (list T) :=
  ofold (fun x' i => d <- nth_error (bc_dofs0 b) i ;;
           if d <? length x then v <- set_fn i ;; upd x' d v else Some x') (seq 0 (length (bc_dofs0 b))) x.
(** DirichletBC.h:495-578 *)
Definition bc_set (b : bc T) (x : list T) (x0 : option (list T)) (alpha : T) : option (list T) :=
  if eqb alpha zero then bc_apply b x (fun _ => Some zero) else
  match bc_g b with
  | GFun values =>
    let dofs_g := match bc_dofs1 b with [] => bc_dofs0 b | _ => bc_dofs1 b end in
    match x0 with
    | Some x0 => bc_apply b x (fun i => j <- nth_error dofs_g i ;; v <- nth_error values j ;;
                                        d <- nth_error (bc_dofs0 b) i ;; w <- nth_error x0 d ;; Some (mul alpha (sub v w)))
    | None => bc_apply b x (fun i => j <- nth_error dofs_g i ;; v <- nth_error values j ;; Some (mul alpha v))
    end
  | GConst value =>
    let bs := sp_bs (bc_space b) in
    match x0 with
    | Some x0 => bc_apply b x (fun i => d <- nth_error (bc_dofs0 b) i ;; v <- nth_error value (d mod bs) ;; w <- nth_error x0 d ;; Some (mul alpha (sub v w)))
    | None => bc_apply b x (fun i => d <- nth_error (bc_dofs0 b) i ;; v <- nth_error value (d mod bs) ;; Some (mul alpha v))
    end
  end.
(** DirichletBC.h:589-602: a marker array that is too short is an exception in debug builds
    and an out-of-bounds write otherwise. *)
Definition mark_dofs (b : bc T) (markers : list bool) : option (list bool) :=
  ofold (fun m d => upd m d true) (bc_dofs0 b) markers.
End Set_.
