(** Matrices of discrete operators: what properties C84 and C85 refer to. *)
From Verif Require Import Base InterpSpec AssembleSpec.
Open Scope nat_scope.

Section Spec.
Variables (T : Type) (zero : T) (add mul sub : T -> T -> T).
Notation tsum := (tsum zero add).

(** ** Vectors and linear maps *)
Definition vadd (x y : list T) : list T := map (fun p => add (fst p) (snd p)) (combine x y).
Definition vscale (s : T) (x : list T) : list T := map (mul s) x.
(** [f] is a linear map of vectors of length [n] to vectors of length [n']. *)
Definition linear (n n' : nat) (f : list T -> list T) : Prop :=
  (forall x, length x = n -> length (f x) = n') /\
  (forall x y, length x = n -> length y = n -> f (vadd x y) = vadd (f x) (f y)) /\
  forall s x, length x = n -> f (vscale s x) = vscale s (f x).

(** ** A matrix given by entries (row, column, value), which are added ... *)
Definition added_entry (M : list (nat * nat * T)) (a b : nat) : T :=
  sum zero add (map (fun e => if (fst (fst e) =? a) && (snd (fst e) =? b) then snd e else zero) M).
(** ... or set: the last one counts *)
Definition set_entry (M : list (nat * nat * T)) (a b : nat) : T :=
  fold_left (fun v e => if (fst (fst e) =? a) && (snd (fst e) =? b) then snd e else v) M zero.
(** Row [a] times a vector *)
Definition times (entry : nat -> nat -> T) (u : list T) (a : nat) : T := tsum (length u) (fun b => mul (entry a b) (nth b u zero)).

(** ** Interpolation in a cell *)
(** The values, [value_size] components, of the function with coefficients [u] at a point where the [dim0] scalar
    basis functions have the values [B]: component [bs0 * j + k] is component [j] of the basis functions with the
    [k]-th of the [bs0] coefficients of each. *)
Definition function_value (bs0 dim0 value_size : nat) (B : list (list T)) (u : list T) : list T :=
  map (fun comp => tsum dim0 (fun i => mul (nth (bs0 * i + comp mod bs0) u zero) (nth (comp / bs0) (nth i B []) zero))) (seq 0 value_size).
(** The dofs of a function with component [k] equal to [v p k] at point [p]: the values ([ident]); or the rows of
    the interpolation matrix times the values, for each of [bs1] components if the element is blocked *)
Definition local_dofs (ident : bool) (bs1 value_size num_points : nat) (Pi : list (list T)) (v : nat -> nat -> T) : list T :=
  if ident then map (fun x => v (fst x) (snd x)) (list_prod (seq 0 num_points) (seq 0 value_size))
  else if bs1 =? 1 then map (fun row => tsum value_size (fun k => tsum num_points (fun p => mul (nth (k * num_points + p) row zero) (v p k)))) Pi
  else map (fun x => tsum num_points (fun p => mul (nth p (fst x) zero) (v p (snd x)))) (list_prod Pi (seq 0 bs1)).
(** The interpolation of the function with coefficients [u] in a cell: its values at the points are mapped to the
    reference cell, the dofs found there and transformed. *)
Definition interpolated (bs0 bs1 dim0 value_size num_points : nat) (ident : bool) (Pi : list (list T)) (basis : nat -> list (list T)) (pull : nat -> list T -> list T) (transform1 : list T -> list T)
    (u : list T) : list T :=
  transform1 (local_dofs ident bs1 value_size num_points Pi (fun p k => nth k (pull p (function_value bs0 dim0 value_size (basis p) u)) zero)).
(** The derivative in direction [dx] of component [d] at point [p] of the function with coefficients [u] *)
Definition derivative (transform0 : list T -> list T) (n : nat) (Phi0 : list (list (list (list T)))) (u : list T) (p dx d : nat) : T :=
  let column := transform0 (map (fun phi => nth d (nth phi (nth p (nth (dx + 1) Phi0 []) []) []) zero) (seq 0 n)) in
  tsum n (fun i => mul (nth i u zero) (nth i column zero)).
Definition curl_value (D : nat -> nat -> T) (k : nat) : T :=
  match k with 0 => sub (D 1 2) (D 2 1) | 1 => sub (D 2 0) (D 0 2) | _ => sub (D 0 1) (D 1 0) end.

(** The interpolation of the gradient: the dofs for the derivatives [dphi], a row for each direction and point *)
Definition gradient_dofs (ndofs0 : nat) (Pi dphi : list (list T)) (u : list T) : list T :=
  map (fun row => tsum (length dphi) (fun q => mul (nth q row zero) (tsum ndofs0 (fun i => mul (nth i u zero) (nth i (nth q dphi []) zero))))) Pi.
(** The interpolation of the curl *)
Definition curl_dofs (transform0 : list T -> list T) (n num_points : nat) (Pi : list (list T)) (Phi0 : list (list (list (list T)))) (u : list T) : list T :=
  local_dofs false 1 3 num_points Pi (fun p k => curl_value (derivative transform0 n Phi0 u p) k).
(** Three derivatives at each point of each function and component *)
Definition derivatives_fit (num_points n : nat) (Phi0 : list (list (list (list T)))) : Prop :=
  forall dx p phi d, dx < 3 -> p < num_points -> phi < n -> d < 3 ->
  exists D P r v, nth_error Phi0 (dx + 1) = Some D /\ nth_error D p = Some P /\ nth_error P phi = Some r /\ nth_error r d = Some v.

(** ** The dof maps of the two spaces: [n0] and [n1] dofs in each cell; no dof twice in a cell *)
Definition maps_fit (num_cells n0 n1 size : nat) (dofmap0 dofmap1 : list (list nat)) : Prop :=
  (forall c, c < num_cells -> exists dofs, nth_error dofmap0 c = Some dofs /\ length dofs = n0 /\ NoDup dofs /\ forall d, In d dofs -> d < size) /\
  forall c, c < num_cells -> exists dofs, nth_error dofmap1 c = Some dofs /\ length dofs = n1.
(** For every function of the first space, the cells that share a dof of the second give it the same value. *)
Definition conforming (num_cells n0 size : nat) (dofmap0 dofmap1 : list (list nat)) (op : nat -> list T -> list T) : Prop :=
  forall u c c' m m' d, length u = size -> c < num_cells -> c' < num_cells -> cell_dof 1 dofmap1 c m = Some d -> cell_dof 1 dofmap1 c' m' = Some d ->
  nth m (op c (cell_coefficients T zero 1 dofmap0 n0 u c)) zero = nth m' (op c' (cell_coefficients T zero 1 dofmap0 n0 u c')) zero.

(** Dof [r] is the [i]-th of cell [c] and of no cell, nor place in a cell, before it. *)
Definition first_at (dofmap : list (list nat)) (num_cells c i r : nat) : Prop :=
  c < num_cells /\ (exists dofs, nth_error dofmap c = Some dofs /\ nth_error dofs i = Some r) /\
  forall c' i' dofs, (c' < c \/ c' = c /\ i' < i) -> nth_error dofmap c' = Some dofs -> nth_error dofs i' <> Some r.
End Spec.
