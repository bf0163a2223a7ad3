(** Model of cpp/dolfinx/common/local_range.h and of [MPI::index_owner]. *)
From Verif Require Import Base.
Open Scope Z_scope.

(** local_range.h:26-42.  Simplification: unbounded integers; the products stay
    below [N], which is an [int64_t]. *)
Definition local_range (index N size : Z) : Z * Z :=
  let n := N / size in
  let r := N mod size in
  if index <? r then (index * (n + 1), index * (n + 1) + n + 1)
  else (index * n + r, index * n + r + n).

(** MPI.h:92-110.  Division by zero is [None]. *)
Definition index_owner (size index N : Z) : option Z :=
  let n := N / size in
  let r := N mod size in
  if index <? r * (n + 1) then Some (index / (n + 1))
  else if n =? 0 then None
  else Some (r + (index - r * (n + 1)) / n).
