(** What tables and their reductions should hold. *)
From Verif Require Import Base Table.
Open Scope nat_scope.

(** A table is made by calls of set, in order. *)
Definition call (T : Type) : Type := text * text * value T.
Definition built (T : Type) (calls : list (call T)) : table T := fold_left (fun t c => table_set T t (fst (fst c)) (snd (fst c)) (snd c)) calls [].
(** Names do not have the end character. *)
Definition plain (T : Type) (calls : list (call T)) : Prop := forall c, In c calls -> ~ In 0 (fst (fst c)) /\ ~ In 0 (snd (fst c)).
(** The value of the last call for this row and column *)
Definition last_set (T : Type) (calls : list (call T)) (row col : text) (v : value T) : Prop :=
  exists before after, calls = before ++ (row, col, v) :: after /\ forall v', ~ In (row, col, v') after.
(** The floating point values of an entry on the processes that have one, in the order of the processes *)
Definition column (T : Type) (tables : list (table T)) (row col : text) : list T :=
  flat_map (fun t => match table_get T t row col with Some (VDouble _ x) => [x] | _ => [] end) tables.
Definition combined {T} (op : T -> T -> T) (l : list T) : option T := match l with [] => None | x :: l' => Some (fold_left op l' x) end.
