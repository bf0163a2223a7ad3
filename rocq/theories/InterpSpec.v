(** Interpolation: what property C74 refers to. *)
From Verif Require Import Base.

(** Place in the array of coefficients of the [m]-th degree of freedom of a cell: the dof map of the
    cell lists blocks of [bs] neighbouring places. *)
Definition cell_dof (bs : nat) (dofmap : list (list nat)) (c m : nat) : option nat :=
  match nth_error dofmap c with
  | Some dofs => match nth_error dofs (m / bs) with Some d => Some (bs * d + m mod bs) | None => None end
  | None => None
  end.
(** The dof map is one of an element with [dim] degrees of freedom, for coefficients in an array of [size]
    entries. *)
Definition dofmap_fits (bs : nat) (dofmap : list (list nat)) (dim size : nat) (cells : list nat) : Prop :=
  0 < bs /\
  forall c, In c cells -> exists dofs, nth_error dofmap c = Some dofs /\ bs * length dofs = dim /\ forall d, In d dofs -> bs * d + bs <= size.

(** [array'] is [array] with new values for the degrees of freedom of the cells: each gets the value
    ([value] of the number of the cell in the list and of the degree of freedom in the cell) for the last
    cell in the list that has it, the others keep theirs. *)
Definition written {T} (bs : nat) (dofmap : list (list nat)) (dim : nat) (cells : list nat) (value : nat -> nat -> T) (array array' : list T) : Prop :=
  length array' = length array /\
  (forall a, (forall c m, In c cells -> cell_dof bs dofmap c m <> Some a) -> nth_error array' a = nth_error array a) /\
  (forall a c m, In c cells -> cell_dof bs dofmap c m = Some a ->
     exists o c' m', nth_error cells o = Some c' /\ m' < dim /\ cell_dof bs dofmap c' m' = Some a /\
       nth_error array' a = Some (value o m') /\
       forall o' c'' m'', o < o' -> nth_error cells o' = Some c'' -> cell_dof bs dofmap c'' m'' <> Some a).

(** The component of the values that belongs to the [k]-th component of an element: for symmetric matrices
    of size [n], whose lower triangle the element stores row by row, the place of the entry in the
    [n] x [n] matrix. *)
Definition component (symmetric : bool) (n k comp : nat) : Prop :=
  if symmetric then exists row col, col <= row /\ row < n /\ 2 * k = row * (row + 1) + 2 * col /\ comp = n * row + col
  else comp = k.
(** Component [comp] of the value of a function is the [j]-th component of its scalar basis functions with
    the [k]-th of the [bs] coefficients of each of them: entry (row, column) of a symmetric
    matrix is the one stored for the lower triangle. *)
Definition holds (symmetric : bool) (n bs comp k j : nat) : Prop :=
  if symmetric then j = 0 /\ exists row col, row < n /\ col < n /\ comp = n * row + col /\
    2 * k = Nat.max row col * (Nat.max row col + 1) + 2 * Nat.min row col
  else k < bs /\ comp = j * bs + k.

Section Sums.
Variables (T : Type) (zero : T) (add mul : T -> T -> T).
(** Sum of products, added in order. *)
Fixpoint dot_from (s : T) (a b : list T) : T :=
  match a, b with x :: a', y :: b' => dot_from (add s (mul x y)) a' b' | _, _ => s end.
Definition dot (a b : list T) : T := dot_from zero a b.
(** Values of component [comp] at the points of the cell that is number [o] in the list; [f] is an
    array with a row of [n1] values for each component. *)
Definition point_values (f : list T) (n1 npoints comp o : nat) : list T :=
  map (fun p => nth (comp * n1 + o * npoints + p) f zero) (seq 0 npoints).
(** Coefficients of a function in a cell. *)
Definition cell_coefficients (bs : nat) (dofmap : list (list nat)) (dim : nat) (array : list T) (c : nat) : list T :=
  map (fun m => match cell_dof bs dofmap c m with Some a => nth a array zero | None => zero end) (seq 0 dim).
End Sums.

(** Sums over the basis functions of a cell: component [j] of the values [B] of the [dim] scalar basis functions with the [k]-th
    of the [bs] coefficients of each. *)
Definition expansion (T : Type) (zero : T) (add mul : T -> T -> T) (bs dim : nat) (coefficients : list T) (B : list (list T)) (k j : nat) : T :=
  dot T zero add mul (map (fun i => nth (bs * i + k) coefficients zero) (seq 0 dim)) (map (fun i => nth j (nth i B []) zero) (seq 0 dim)).
