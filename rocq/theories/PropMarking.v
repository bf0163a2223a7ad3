(** Property C54. *)
From Verif Require Import Base Nbx World IndexMap IndexMapSpec ImSharedProofs PatternMats LocateSpec Marking MarkingSpec MarkingLoop.
Open Scope nat_scope.

(** C54: the loop ends (any bound larger than the number of local edges of all ranks is not
    reached), the edges chosen by the user stay marked, the marks are closed under the rule
    for faces, all ranks agree, and every set of edges with these three properties contains
    the marks. *)
Theorem C54_marking :
  forall P nbx maps f2e long edges, nbx_oracle P nbx -> maps_ok P maps ->
  (forall r, r < P -> faces_ok (maps r) (f2e r) (long r)) ->
  (forall r e, r < P -> chosen maps edges r e -> e < edge_count (maps r)) ->
  (Z.of_nat (lsum (map (fun r => length (f2e r)) (seq 0 P))) < 2147483648)%Z ->
  forall fuel, lsum (map (fun r => edge_count (maps r)) (seq 0 P)) < fuel ->
  exists W, marked_edges P nbx maps f2e long edges fuel = Some W /\
    length W = P /\ (forall r m, nth_error W r = Some m -> length m = edge_count (maps r)) /\
    (forall r e, r < P -> chosen maps edges r e -> marked W r e) /\
    closed P f2e long (marked W) /\ agreed P maps (marked W) /\
    forall M : nat -> nat -> Prop, (forall r e, r < P -> chosen maps edges r e -> M r e) -> closed P f2e long M -> agreed P maps M ->
      forall r e, r < P -> marked W r e -> M r e.
Proof. exact marking_statement. Qed.
Print Assumptions C54_marking.

(** Example: three ranks with one triangle each, side by side; ranks 1 and 2 have one ghost
    edge each.  The chosen edge of rank 0 implies the edge shared with rank 1, which implies
    the one shared with rank 2, which is not a longest edge there. *)
Definition mk_map (r : nat) : imap :=
  nth r [mkIM 0 3 7 [] [] [] [1]; mkIM 3 5 7 [2] [0] [0] [2]; mkIM 5 7 7 [3] [1] [1] []] (mkIM 0 0 0 [] [] [] []).
Definition mk_f2e (_ : nat) : list (list nat) := [[0; 1; 2]].
Definition mk_long (r : nat) : list nat := nth r [[2]; [0]; [1]] [].
Definition mk_edges (r : nat) : list nat := nth r [[0]; []; []] [].
Example mk_map_ok : maps_ok 3 mk_map.
Proof.
  assert (Hnb : nbx_oracle 3 (senders 3)) by (intros d r _; reflexivity).
  destruct (maps_make_ok 3 (senders 3) (fun r => nth r [3; 2; 2] 0) (fun r => nth r [[]; [2]; [3]] []) (fun r => nth r [[]; [0]; [1]] []) Hnb) as (m & Hm & H); [lia| |].
  - intros [|[|[|r]]] Hr; [| | |lia]; (split; [reflexivity|]); (split; [repeat first [apply NoDup_nil | apply NoDup_cons; [cbn; lia|]]|]);
      intros [|[|[|k]]] g o Hg Ho; cbn in Hg, Ho; try discriminate; injection Hg as <-; injection Ho as <-; vm_compute; lia.
  - apply (PatternMats.maps_ok_ext 3 m); [lia| |exact Hm]. intros [|[|[|r]]] Hr; [| | |lia]; destruct (H _ Hr) as (E & _); vm_compute in E; injection E as <-; reflexivity.
Qed.
Example C54_example_hyps :
  nbx_oracle 3 (senders 3) /\ maps_ok 3 mk_map /\
  (forall r, r < 3 -> faces_ok (mk_map r) (mk_f2e r) (mk_long r)) /\
  (forall r e, r < 3 -> chosen mk_map (Some mk_edges) r e -> e < edge_count (mk_map r)) /\
  (Z.of_nat (lsum (map (fun r => length (mk_f2e r)) (seq 0 3))) < 2147483648)%Z /\
  lsum (map (fun r => edge_count (mk_map r)) (seq 0 3)) < 10.
Proof.
  split; [intros d r _; reflexivity|]. split; [exact mk_map_ok|]. split; [|split; [|split; [reflexivity|vm_compute; lia]]].
  - intros [|[|[|r]]] Hr; [| | |lia]; split; try reflexivity.
    1,3,5: intros es e [<-|[]] He; cbn in He; vm_compute; lia.
    all: intros e [<-|[]]; vm_compute; lia.
  - intros [|[|[|r]]] e Hr H; [| | |lia]; cbn in H; [destruct H as [<-|[]]|destruct H|destruct H]; vm_compute; lia.
Qed.
Example C54_example :
  marked_edges 3 (senders 3) mk_map mk_f2e mk_long (Some mk_edges) 10
    = Some [[true; false; true]; [true; false; true]; [false; true; true]] /\
  marked_edges 3 (senders 3) mk_map mk_f2e mk_long None 10 = Some [[true; true; true]; [true; true; true]; [true; true; true]].
Proof. vm_compute. auto. Qed.
