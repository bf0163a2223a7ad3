(** Property C95: registered timings and their listing. *)
From Verif Require Import Base BaseProofs Table TableSpec TableProofs TimeLog TimeLogSpec TimeLogProofs.
From Coq Require Import ZArith.
Open Scope nat_scope.

(** The timing of a task is the number of times that were registered for it, and their sum; there is none if there were no times. *)
Theorem C95_timing : forall T add (history : list (text * T)) task,
  find_task T (logged T add history) task = match times T history task with [] => None | x :: l => Some (Z.of_nat (length (x :: l)), fold_left add l x) end.
Proof. exact timing_ok. Qed.
Print Assumptions C95_timing.
Definition history_a : list (text * Z) := [([1], 5%Z); ([2; 3], 1%Z); ([1], 7%Z); ([1], 2%Z)].
Example C95_timing_example : find_task Z (logged Z Z.add history_a) [1] = Some (3, 14)%Z /\ find_task Z (logged Z Z.add history_a) [2] = None.
Proof. split; reflexivity. Qed.

(** Listing on two or more processes.  The full property is that it never fails; it fails exactly if the first process has timed some task and another process has
    timed a task that the first has not. *)
Theorem C95_list_partial : forall T add mul rmin rmax inverse divide r (h0 : list (text * T)) hs,
  hs <> [] -> (forall h task, In h (h0 :: hs) -> registered T h task -> ~ In 0 task) ->
  list_timings T add mul rmin rmax inverse divide r (map (logged T add) (h0 :: hs)) 0 = None <->
  (exists task, registered T h0 task) /\ exists h task, In h hs /\ registered T h task /\ ~ registered T h0 task.
Proof. exact list_iff. Qed.
Print Assumptions C95_list_partial.
Example C95_list_example :
  (forall h task, In h [history_a; [([1], 3%Z)]] -> registered Z h task -> ~ In 0 task) /\
  list_timings Z Z.add Z.mul Z.min Z.max Z.of_nat Z.div Max (map (logged Z Z.add) [history_a; [([1], 3%Z)]]) 0 =
    Some [[VInt Z 3; VDouble Z 4; VDouble Z 14]; [VInt Z 1; VDouble Z 1; VDouble Z 1]]%Z /\
  list_timings Z Z.add Z.mul Z.min Z.max Z.of_nat Z.div Max (map (logged Z Z.add) [[]; [([1], 3%Z)]]) 0 = Some [[VDouble Z 3; VDouble Z 3]]%Z.
Proof.
  split; [|split; vm_compute; reflexivity].
  intros h task [<-|[<-|[]]] (x & H); cbn in H; repeat (destruct H as [H|H]; [injection H as <- _; cbn; intuition discriminate|]); contradiction.
Qed.

(** A case where it fails: the number of times of the second task is missing. *)
Theorem C95_list_refuted : exists h0 h1, list_timings Z Z.add Z.mul Z.min Z.max Z.of_nat Z.div Max (map (logged Z Z.add) [h0; h1]) 0 = None /\
  (forall h task, In h [h0; h1] -> registered Z h task -> ~ In 0 task) /\ h0 <> [].
Proof.
  exists [([1], 5%Z)], [([1], 4%Z); ([2], 3%Z)]. split; [vm_compute; reflexivity|]. split; [|discriminate].
  intros h task [<-|[<-|[]]] (x & H); cbn in H; repeat (destruct H as [H|H]; [injection H as <- _; cbn; intuition discriminate|]); contradiction.
Qed.
Print Assumptions C95_list_refuted.
