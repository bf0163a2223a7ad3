(** Model of the registered timings and their listing (cpp/dolfinx/common/TimeLogger.cpp, and str() of common/Table.cpp).

    Simplifications: those of Table; the map of timings is a list of pairs with different names, in any order; of the text that str() makes only the
    entries are modelled, in rows.  Exceptions are [None]. *)
From Verif Require Import Base Table.
Open Scope nat_scope.

(** "reps", "avg" and "tot" *)
Definition reps : text := [114; 101; 112; 115].
Definition avg : text := [97; 118; 103].
Definition tot : text := [116; 111; 116].
(** Table.cpp:44-50: the names of rows (or columns), each once, in the order of their first use *)
Definition distinct (l : list text) : list text := fold_left (fun acc x => if existsb (text_eqb x) acc then acc else acc ++ [x]) l [].

Section Values.
Variables (T : Type) (add mul rmin rmax : T -> T -> T) (inverse : nat -> T) (divide : T -> Z -> T).
(** Table.cpp:207-222: get throws if an entry is missing. *)
Definition table_cells (t : table T) : option (list (list (value T))) :=
  omap (fun row => omap (fun col => table_get T t row col) (distinct (map (fun kv => snd (fst kv)) t))) (distinct (map (fun kv => fst (fst kv)) t)).

Definition timings := list (text * (Z * T)).
Fixpoint find_task (l : timings) (task : text) : option (Z * T) :=
  match l with [] => None | (n, e) :: l' => if text_eqb n task then Some e else find_task l' task end.
(** TimeLogger.cpp:24-38 *)
Fixpoint register_timing (l : timings) (task : text) (time : T) : timings :=
  match l with
  | [] => [(task, (1%Z, time))]
  | (n, (k, total)) :: l' => if text_eqb n task then (n, ((k + 1)%Z, add total time)) :: l' else (n, (k, total)) :: register_timing l' task time
  end.
(** TimeLogger.cpp:52-66 *)
Definition timing_table (l : timings) : table T :=
  fold_left (fun t e => table_set T (table_set T (table_set T t (fst e) reps (VInt T (fst (snd e)))) (fst e) avg (VDouble T (divide (snd (snd e)) (fst (snd e)))))
    (fst e) tot (VDouble T (snd (snd e)))) l [].
(** TimeLogger.cpp:40-50, on process [rank] *)
Definition list_timings (r : reduction) (all : list timings) (rank : nat) : option (list (list (value T))) :=
  t <- table_reduce T add mul rmin rmax inverse r (map timing_table all) rank ;; table_cells t.
End Values.
