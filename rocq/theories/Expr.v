(** Model of the evaluation of expressions at points (cpp/dolfinx/fem/assemble_expression_impl.h, assembler.h) and of
    their interpolation (cpp/dolfinx/fem/Function.h:298-388).

    Simplifications: the kernel is any function of what it gets: the zeroed values, the coefficients of the entity, the
    constants, the coordinates of the nodes of the cell, and for facets the local facet and its permutation; so is the
    dof transformation of the argument, of the cell and the values.  Packing the coefficients is property C77.
    Meshes are numbers, as are coordinates of points, which are compared exactly and not up to 1e-10.  Exceptions and
    accesses outside arrays are [None]. *)
From Verif Require Import Base Interp.
Open Scope nat_scope.

(** A cell, or a cell and the local index of a facet *)
Inductive entity := Cell (c : nat) | Facet (c f : nat).
Definition entity_cell (e : entity) : nat := match e with Cell c => c | Facet c _ => c end.

Section Expr.
Variables (T U : Type) (zero : T).
Variables (kernel : list T -> list T -> list T -> list U -> option (nat * nat) -> list T) (P0 : nat -> nat -> list T -> list T).

(** assemble_expression_impl.h:88-93 and 104-109 *)
Definition node_coordinates (x_dofmap : list (list nat)) (x : list U) (c : nat) : option (list U) :=
  x_dofs <- nth_error x_dofmap c ;; l <- omap (fun d => slice x (3 * d) (3 * d + 3)) x_dofs ;; Some (concat l).
(** assemble_expression_impl.h:62-120.  [coeffs]: rows of [cstride] numbers for each entity; [perms]: empty or a row of
    permutations for each cell.  The kernel writes into the array of values that it gets: the number of values does
    not change. *)
Definition tabulate_entity (npoints value_size nargs : nat) (x_dofmap : list (list nat)) (x : list U) (coeffs : list T) (cstride : nat) (constants : list T)
    (perms : list (list nat)) (n : nat) (e : entity) : option (list T) :=
  let size0 := npoints * value_size in
  coords <- node_coordinates x_dofmap x (entity_cell e) ;;
  w <- slice coeffs (n * cstride) (n * cstride + cstride) ;;
  local <- (match e with
            | Cell _ => Some None
            | Facet c f => match perms with [] => Some (Some (f, 0)) | _ => row <- nth_error perms c ;; p <- nth_error row f ;; Some (Some (f, p)) end
            end) ;;
  let v := P0 (entity_cell e) size0 (kernel (repeat zero (size0 * nargs)) w constants coords local) in
  if length v =? size0 * nargs then Some v else None.
Definition tabulate (npoints value_size nargs : nat) (x_dofmap : list (list nat)) (x : list U) (coeffs : list T) (cstride : nat) (constants : list T)
    (perms : list (list nat)) (entities : list entity) (values : list T) : option (list T) :=
  let offset := npoints * value_size * nargs in
  ofold (fun values ne => let '(n, e) := ne in
      v <- tabulate_entity npoints value_size nargs x_dofmap x coeffs cstride constants perms n e ;;
      ofold (fun values j => y <- nth_error v j ;; upd values (n * offset + j) y) (seq 0 offset) values)
    (combine (seq 0 (length entities)) entities) values.
(** assembler.h:65-85: [hash0], [hash1] of the coordinate elements of the expression and of the mesh *)
Definition tabulate_expression (hash0 hash1 : nat) (npoints value_size nargs : nat) (x_dofmap : list (list nat)) (x : list U) (coeffs : list T) (cstride : nat) (constants : list T)
    (perms : list (list nat)) (entities : list entity) (values : list T) : option (list T) :=
  if negb (hash0 =? hash1) then None else tabulate npoints value_size nargs x_dofmap x coeffs cstride constants perms entities values.

(** Function.h:372-382: from (cell, point, component) to (component, cell, point) *)
Definition components_first (ncells npoints value_size : nat) (f : list T) : option (list T) :=
  ofold (fun f1 x => let '((i, j), k) := x in
      y <- nth_error f ((i * npoints + j) * value_size + k) ;; upd f1 ((k * ncells + i) * npoints + j) y)
    (list_prod (list_prod (seq 0 ncells) (seq 0 npoints)) (seq 0 value_size)) (repeat zero (ncells * npoints * value_size)).
(** Function.h:301-317: the mesh of all coefficients, or that of the function *)
Definition expression_mesh (coefficient_meshes : list nat) (mesh : nat) : option nat :=
  m0 <- ofold (fun m0 m => match m0 with None => Some (Some m) | Some k => if m =? k then Some m0 else None end) coefficient_meshes None ;;
  Some (match m0 with None => mesh | Some m => m end).
Definition same_points (X0 X1 : list (list nat)) : bool := if list_eq_dec (list_eq_dec Nat.eq_dec) X0 X1 then true else false.
(** Function.h:298-388, and interpolate.h as in [interpolate_values].  [geometry m]: the hash of the coordinate element, the dof map and the
    coordinates of mesh [m]; [coeffs] is packed for [cells0] *)
Definition interpolate_expression (add mul : T -> T -> T) (coefficient_meshes : list nat) (mesh : nat) (geometry : nat -> nat * list (list nat) * list U) (hash0 : nat) (has_argument : bool) (value_size : nat) (X0 X1 : list (list nat))
    (coeffs : list T) (cstride : nat) (constants : list T)
    (element_bs num_scalar_dofs element_vs num_sub function_value_size dofmap_bs : nat) (symmetric interpolation_ident : bool) (points : nat) (Pi : list (list T)) (dofmap : list (list nat)) (transform : nat -> list T -> list T)
    (cells0 cells1 : list nat) (array : list T) : option (list T) :=
  m <- expression_mesh coefficient_meshes mesh ;;
  if negb (length cells0 =? length cells1) then None else
  if has_argument then None else
  if negb (value_size =? function_value_size) then None else
  if negb (same_points X0 X1) then None else
  let ncells := length cells0 in let npoints := length X0 in
  let '(hash1, x_dofmap, x) := geometry m in
  fdata <- tabulate_expression hash0 hash1 npoints value_size 1 x_dofmap x coeffs cstride constants [] (map Cell cells0) (repeat zero (ncells * npoints * value_size)) ;;
  fdata1 <- components_first ncells npoints value_size fdata ;;
  interpolate_values T zero add mul element_bs num_scalar_dofs element_vs num_sub function_value_size dofmap_bs symmetric interpolation_ident points Pi dofmap transform cells1 fdata1 (value_size, ncells * npoints) array.
End Expr.
