(** Property C39: reverse Cuthill-McKee. *)
From Verif Require Import Base Algo AlgoProofs Ordering OrderingProofs.
Open Scope nat_scope.

(** C39: for every undirected graph ([symmetric]: [j] is a link of [i] exactly when [i] is a
    link of [j]) the result is a permutation of the node numbers, whatever order the sort
    leaves nodes of equal degree in. *)
Theorem C39_reorder_rcm :
  forall g, symmetric g -> forall srt, (forall l, Permutation l (srt l)) -> (forall i, (Z.of_nat (degree g i) < 2147483647)%Z) ->
  exists p, reorder_rcm srt g = Some (map Some p) /\ Permutation p (seq 0 (length g)).
Proof. exact reorder_ok. Qed.
Print Assumptions C39_reorder_rcm.

(** Two components, one of them an isolated node, and a path with a loop. *)
Definition ex_graph : list (list nat) := [[2]; [3; 4]; [0; 2; 5]; [1]; [1]; [2]; []].
Example ex_graph_symmetric : symmetric ex_graph.
Proof.
  intros i li j H Hj. do 7 (destruct i as [|i]; [cbn in H; injection H as <-; cbn in Hj; repeat (destruct Hj as [<-|Hj]; [eexists; split; [reflexivity|cbn; tauto]|]); destruct Hj|]).
  destruct i; discriminate.
Qed.
Example ex_reorder : reorder_rcm (isort (fun a b => degree ex_graph a <=? degree ex_graph b)) ex_graph = Some (map Some [3; 5; 2; 6; 4; 1; 0]).
Proof. vm_compute. reflexivity. Qed.
Example ex_reorder_srt : forall l, Permutation l (isort (fun a b => degree ex_graph a <=? degree ex_graph b) l).
Proof. intro l. apply isort_perm. Qed.

(** C39: for a graph that is not symmetric (node 1 has a link to node 0, but not the other
    way round) the component of node 1 contains the node 0, which has a number already; it is
    numbered again and the result is no permutation. *)
Theorem C39_directed_refuted : reorder_rcm (fun l => l) [[]; [0]] = Some [Some 1; Some 2].
Proof. vm_compute. reflexivity. Qed.
Print Assumptions C39_directed_refuted.
