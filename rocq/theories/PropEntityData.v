(** C69: data on entities reaches every process that has the entity. *)
From Verif Require Import Base BaseProofs Algo AlgoProofs World WorldProofs Nbx IndexMap PostOffice PostOfficeProofs EntityData EntityDataSpec EntityDataProofs.

(** The inputs of all processes are those a process gets ([here]: all vertices are there; with the
    local numbers of the vertices and the value, each as often as it was given) and the others
    ([elsewhere]: some vertex is not there). *)
Theorem C69_distribute : forall P nbx (V : Type) sort_by_dest cell_vertex_dofs layout num_vert N entities data nodes_g c_to_v xdofmap q cv,
  nbx_oracle P nbx -> sorts_keys sort_by_dest ->
  NoDup cell_vertex_dofs -> NoDup layout -> num_vert = length (filter (fun d => existsb (Nat.eqb d) cell_vertex_dofs) layout) -> 0 < num_vert ->
  (forall r, r < P -> length (entities r) = length (data r)) ->
  (forall r row, r < P -> In row (entities r) -> length row = length layout /\ forall n, In n (vertex_nodes cell_vertex_dofs layout row) -> n < N) ->
  (forall r, r < P -> NoDup (nodes_g r) /\ forall n, In n (nodes_g r) -> n < N) ->
  q < P -> c_to_v q = Some cv -> mesh_nodes_ok cell_vertex_dofs (nodes_g q) cv (xdofmap q) N ->
  exists found here elsewhere,
  distribute_entity_data P nbx V sort_by_dest cell_vertex_dofs layout num_vert N entities data nodes_g c_to_v xdofmap q = Some found /\
  Permutation (concat (map (fun r => combine (entities r) (data r)) (seq 0 P))) (here ++ elsewhere) /\
  Forall2 (found_as cell_vertex_dofs layout (nodes_g q) cv (xdofmap q)) here found /\
  Forall (not_here cell_vertex_dofs layout (nodes_g q) cv (xdofmap q)) elsewhere.
Proof. exact distribute_ok. Qed.
Print Assumptions C69_distribute.

(** If a process lists a node twice, it gets the entity twice. *)
Definition wx_run (nodes : nat -> list nat) :=
  distribute_entity_data 2 (senders 2) nat ksort [0; 1; 2] [1; 2] 2 4
    (fun r => if r =? 0 then [[3; 2]; [1; 0]] else [[2; 1]]) (fun r => if r =? 0 then [7; 8] else [9]) nodes
    (fun r => Some [if r =? 0 then [2; 1; 0] else [0; 1; 2]]) (fun r => [if r =? 0 then [1; 2; 0] else [1; 2; 0]]).
Theorem C69_repeated_nodes_refuted : exists nodes found,
  wx_run nodes 0 = Some found /\ ~ NoDup found.
Proof.
  exists (fun r => if r =? 0 then [2; 0; 1; 1] else [3; 1; 2]). eexists. split; [vm_compute; reflexivity|]. intro H.
  repeat (apply NoDup_cons_iff in H as (? & H)).
  match goal with K : ~ In _ _ |- _ => solve [apply K; cbn; auto] end.
Qed.
Print Assumptions C69_repeated_nodes_refuted.

(** Nodes of the input that no cell uses are not counted in the number of geometry nodes, so that
    indices of other nodes may not be below it: then an assertion fails, and without it the
    post office is a rank that does not exist. *)
Theorem C69_unused_nodes_refuted : exists entities data nodes_g c_to_v xdofmap,
  NoDup nodes_g /\ length nodes_g = 3 /\ Forall (fun row => incl row nodes_g) entities /\
  mesh_nodes_ok [0; 1; 2] nodes_g c_to_v xdofmap 6 /\
  distribute_entity_data 1 (senders 1) nat ksort [0; 1; 2] [1; 2] 2 3 (fun _ => entities) (fun _ => data) (fun _ => nodes_g) (fun _ => Some c_to_v) (fun _ => xdofmap) 0 = None /\
  exists n, In n nodes_g /\ Ranges.index_owner 1%Z (Z.of_nat n) 3%Z = Some 1%Z.
Proof.
  exists [[0; 5]], [7], [0; 1; 5], [[0; 1; 2]], [[0; 1; 2]]. split; [repeat first [apply NoDup_nil | apply NoDup_cons; [cbn; lia|]]|]. split; [reflexivity|]. split.
  { constructor; [|constructor]. intros n [<-|[<-|[]]]; cbn; auto. }
  split; [|split; [vm_compute; reflexivity|exists 5; split; [cbn; auto|vm_compute; reflexivity]]].
  split; [repeat first [apply NoDup_nil | apply NoDup_cons; [cbn; lia|]]|]. split; [|split; [|split]].
  + intros n Hn. cbn in Hn. lia.
  + intros c k vs v E1 E2. destruct c as [|c]; [|destruct c; discriminate]. injection E1 as <-. exists [0; 1; 2].
    destruct k as [|[|[|k]]]; cbn in E2; [exists 0, 0, 0|exists 1, 1, 1|exists 2, 2, 5|destruct k; discriminate]; (split; [reflexivity|]); (split; [reflexivity|]); split; reflexivity.
  + intros c vs E1. destruct c as [|c]; [|destruct c; discriminate]. eexists. reflexivity.
  + assert (V : forall n v, vertex_of [0; 1; 2] [0; 1; 5] [[0; 1; 2]] [[0; 1; 2]] n v -> (n, v) = (0, 0) \/ (n, v) = (1, 1) \/ (n, v) = (5, 2)).
    { intros n v (c & k & vs & xs & d & x & E1 & E2 & E3 & E4 & E5 & E6). destruct c as [|c]; [|destruct c; discriminate]. injection E1 as <-. injection E3 as <-.
      destruct k as [|[|[|k]]]; cbn in E2, E4; [| | |destruct k; discriminate]; injection E2 as <-; injection E4 as <-; injection E5 as <-; injection E6 as <-; auto. }
    intros n v v' H H'. apply V in H, H'. intuition congruence.
Qed.
Print Assumptions C69_unused_nodes_refuted.

(** Two triangles with the nodes 0 1 2 and 1 2 3 on two processes; values on three edges. *)
Definition wx_nodes (r : nat) : list nat := if r =? 0 then [2; 0; 1] else [3; 1; 2].
Example C69_computed : wx_run wx_nodes 0 = Some [([2; 1], 8); ([1; 0], 9)] /\ wx_run wx_nodes 1 = Some [([0; 1], 9); ([1; 2], 7)].
Proof. split; vm_compute; reflexivity. Qed.
Lemma ksort_sorts {V} : @sorts_keys V ksort.
Proof.
  intro l. split; [apply isort_perm|]. eapply SS_impl_in; [|apply (isort_sorted _ (fun a b : nat * V => fst a <=? fst b))].
  - intros a b _ _ H. now apply Nat.leb_le.
  - intros a b. rewrite !Nat.leb_le. lia.
  - intros a b c. rewrite !Nat.leb_le. lia.
Qed.
Example C69_example : exists here elsewhere,
  Permutation [([3; 2], 7); ([1; 0], 8); ([2; 1], 9)] (here ++ elsewhere) /\
  Forall2 (found_as [0; 1; 2] [1; 2] (wx_nodes 0) [[2; 1; 0]] [[1; 2; 0]]) here [([2; 1], 8); ([1; 0], 9)] /\
  Forall (not_here [0; 1; 2] [1; 2] (wx_nodes 0) [[2; 1; 0]] [[1; 2; 0]]) elsewhere.
Proof.
  destruct (C69_distribute 2 (senders 2) nat ksort [0; 1; 2] [1; 2] 2 4
    (fun r => if r =? 0 then [[3; 2]; [1; 0]] else [[2; 1]]) (fun r => if r =? 0 then [7; 8] else [9]) wx_nodes
    (fun r => Some [if r =? 0 then [2; 1; 0] else [0; 1; 2]]) (fun r => [if r =? 0 then [1; 2; 0] else [1; 2; 0]]) 0 [[2; 1; 0]]) as (f & h & e & E & H1 & H2 & H3).
  - intros d r _. reflexivity.
  - apply ksort_sorts.
  - repeat first [apply NoDup_nil | apply NoDup_cons; [cbn; lia|]].
  - repeat first [apply NoDup_nil | apply NoDup_cons; [cbn; lia|]].
  - reflexivity.
  - lia.
  - intros [|[|r]] Hr; [reflexivity|reflexivity|lia].
  - intros [|[|r]] row Hr H; [| |lia]; cbn in H; repeat destruct H as [<-|H]; try contradiction; (split; [reflexivity|]); intros n Hn; cbn in Hn; repeat destruct Hn as [<-|Hn]; try contradiction; lia.
  - intros [|[|r]] Hr; [| |lia]; (split; [repeat first [apply NoDup_nil | apply NoDup_cons; [cbn; lia|]]|]); intros n Hn; cbn in Hn; repeat destruct Hn as [<-|Hn]; try contradiction; lia.
  - lia.
  - reflexivity.
  - assert (V : forall n v, vertex_of [0; 1; 2] (wx_nodes 0) [[2; 1; 0]] [[1; 2; 0]] n v -> (n, v) = (0, 2) \/ (n, v) = (1, 1) \/ (n, v) = (2, 0)).
    { intros n v (c & k & vs & xs & d & x & E1 & E2 & E3 & E4 & E5 & E6). destruct c as [|c]; [|destruct c; discriminate]. injection E1 as <-. injection E3 as <-.
      destruct k as [|[|[|k]]]; cbn in E2, E4; [| | |destruct k; discriminate]; injection E2 as <-; injection E4 as <-; injection E5 as <-; injection E6 as <-; auto. }
    split; [repeat first [apply NoDup_nil | apply NoDup_cons; [cbn; lia|]]|]. split; [|split; [|split]].
    + intros n Hn. cbn in Hn. lia.
    + intros c k vs v E1 E2. destruct c as [|c]; [|destruct c; discriminate]. injection E1 as <-. exists [1; 2; 0].
      destruct k as [|[|[|k]]]; cbn in E2; [exists 0, 1, 0|exists 1, 2, 1|exists 2, 0, 2|destruct k; discriminate]; (split; [reflexivity|]); (split; [reflexivity|]); split; reflexivity.
    + intros c vs E1. destruct c as [|c]; [|destruct c; discriminate]. eexists. reflexivity.
    + intros n v v' H H'. apply V in H, H'. intuition congruence.
  - exists h, e. split; [exact H1|]. split; [|exact H3]. fold wx_run in E. change (wx_run wx_nodes 0 = Some f) in E. rewrite (proj1 C69_computed) in E. injection E as <-. exact H2.
Qed.
