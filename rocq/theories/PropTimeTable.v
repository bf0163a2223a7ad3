(** Property C95: the table of timings of one process. *)
From Verif Require Import Base BaseProofs Table TimeLog TimeLogSpec TimeTableProofs.
From Coq Require Import ZArith.
Open Scope nat_scope.

(** A task with times has a row of three entries: how many times, their sum divided by that number, and their sum.  Other tasks have no row. *)
Theorem C95_table : forall T add divide (h : list (text * T)) task, let t := timing_table T divide (logged T add h) in
  match times T h task with
  | [] => forall col, table_get T t task col = None
  | x :: l => let n := Z.of_nat (length (x :: l)) in let sum := fold_left add l x in
    table_get T t task reps = Some (VInt T n) /\ table_get T t task avg = Some (VDouble T (divide sum n)) /\ table_get T t task tot = Some (VDouble T sum) /\
    forall col, col <> reps -> col <> avg -> col <> tot -> table_get T t task col = None
  end.
Proof. intros T add divide. exact (row_ok T add add add add divide). Qed.
Print Assumptions C95_table.
Definition history_b : list (text * Z) := [([1], 5%Z); ([2; 3], 1%Z); ([1], 8%Z); ([1], 2%Z)].
Example C95_table_example : times Z history_b [1] = [5; 8; 2]%Z /\
  map (table_get Z (timing_table Z Z.div (logged Z Z.add history_b)) [1]) [reps; avg; tot] = [Some (VInt Z 3%Z); Some (VDouble Z 5%Z); Some (VDouble Z 15%Z)].
Proof. split; reflexivity. Qed.

(** On a single process, listing the timings never fails. *)
Theorem C95_single : forall T add mul rmin rmax inverse divide r (h : list (text * T)),
  exists cells, list_timings T add mul rmin rmax inverse divide r [logged T add h] 0 = Some cells.
Proof. exact single_ok. Qed.
Print Assumptions C95_single.
Example C95_single_example : list_timings Z Z.add Z.mul Z.min Z.max Z.of_nat Z.div Max [logged Z Z.add history_b] 0 =
  Some [[VInt Z 3%Z; VDouble Z 5%Z; VDouble Z 15%Z]; [VInt Z 1%Z; VDouble Z 1%Z; VDouble Z 1%Z]].
Proof. vm_compute. reflexivity. Qed.
