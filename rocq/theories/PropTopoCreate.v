(** Property C64: the topology built from distributed cells. *)
From Verif Require Import Base Nbx World WorldProofs IndexMap IndexMapSpec Sharing SharingProofs TopoCreate TopoCreateSpec TopoCreateProofs.
Open Scope nat_scope.

(** For every number of processes, every distribution of cells of any types with ghosts, every
    choice of owners of shared vertices and every order of messages, create_topology returns on
    every rank, and the result is consistent: cells and vertices have global numbers, the same
    on all ranks, without gaps; owners own a cell with the vertex; the connectivity of a cell
    lists its vertices in order. *)
Theorem C64_topology :
  forall P nbx pcx nbxc nbxv pick threads types nv n cells original owners boundary,
    0 < P -> nbx_oracle P nbx -> nbx_oracle P pcx -> nbx_oracle P nbxc -> nbx_oracle P nbxv ->
    (forall r i m, 1 < m -> pick r i m < m) -> (forall r, r < P -> 1 <= threads r) ->
    topology_input P types nv n cells original owners boundary ->
    (forall r v, r < P -> In v (boundary r) -> (v < 2 ^ 31)%Z) ->
    exists num vmap cmap conn,
      (forall r, r < P ->
         create_topology P nbx pcx nbxc nbxv pick threads types nv cells original owners boundary r =
         Some (vmap r, map (fun t => (cmap t r, map Some (conn t r))) (seq 0 types))) /\
      topology_result P types nv n cells original num vmap cmap conn.
Proof. exact create_topology_ok. Qed.
Print Assumptions C64_topology.

(** Two ranks, triangles and quadrilaterals; both ranks have a ghost triangle and rank 0 a ghost
    quadrilateral. *)
Definition ex_nv (t : nat) : nat := match t with 0 => 3 | _ => 4 end.
Definition ex_n (t r : nat) : nat := match t, r with 0, 0 => 1 | 0, 1 => 2 | 1, 0 => 1 | 1, 1 => 1 | _, _ => 0 end.
Definition ex_cells (t r : nat) : list Z :=
  match t, r with
  | 0, 0 => [10; 20; 30; 20; 30; 40]%Z
  | 0, 1 => [40; 50; 90; 20; 30; 40; 10; 20; 30]%Z
  | 1, 0 => [10; 30; 70; 80; 40; 30; 50; 60]%Z
  | 1, 1 => [40; 30; 50; 60]%Z
  | _, _ => []
  end.
Definition ex_orig (t r : nat) : list Z :=
  match t, r with 0, 0 => [7; 5]%Z | 0, 1 => [3; 5; 7]%Z | 1, 0 => [0; 1]%Z | 1, 1 => [1]%Z | _, _ => [] end.
Definition ex_owners (t r : nat) : list nat :=
  match t, r with 0, 0 => [1] | 0, 1 => [0] | 1, 0 => [1] | _, _ => [] end.
Definition ex_boundary (r : nat) : list Z := match r with 0 => [20; 30; 80]%Z | 1 => [20; 30]%Z | _ => [] end.

Lemma ex_input : topology_input 2 2 ex_nv ex_n ex_cells ex_orig ex_owners ex_boundary.
Proof.
  assert (Hown : forall r v, r < 2 -> has_owned_vertex 2 ex_nv ex_n ex_cells r v <->
     In v (match r with 0 => [10; 20; 30; 70; 80]%Z | _ => [40; 50; 90; 20; 30; 60]%Z end)).
  { intros r v Hr. split.
    - intros (t & c & j & Ht & Hc & Hj & H). destruct t as [|[|t]], r as [|[|r]]; try lia; cbn [ex_n ex_nv ex_cells] in *;
        (destruct c as [|[|c]]; [| |lia]; try lia); destruct j as [|[|[|[|j]]]]; try lia; cbn in H; injection H as <-; cbn; auto 10.
    - intro H. destruct r as [|[|r]]; [| |lia]; cbn in H; repeat destruct H as [<-|H]; try contradiction;
        first [now (exists 0, 0, 0; repeat split; cbn; lia) | now (exists 0, 0, 1; repeat split; cbn; lia) | now (exists 0, 0, 2; repeat split; cbn; lia)
              |now (exists 0, 1, 0; repeat split; cbn; lia) | now (exists 0, 1, 1; repeat split; cbn; lia) | now (exists 0, 1, 2; repeat split; cbn; lia)
              |now (exists 1, 0, 2; repeat split; cbn; lia) | now (exists 1, 0, 3; repeat split; cbn; lia)]. }
  constructor.
  - intros [|t] Ht; cbn; lia.
  - intros [|[|t]] [|[|r]] Ht Hr; try lia; cbn; lia.
  - intros [|[|t]] [|[|r]] v Ht Hr H; try lia; cbn in H; repeat destruct H as [<-|H]; try contradiction; lia.
  - intros [|[|t]] [|[|r]] Ht Hr; try lia; cbn [ex_orig]; repeat first [apply NoDup_nil | apply NoDup_cons; [cbn; lia|]].
  - intros t r s c d g Ht Hr Hs Hc Hd H1 H2. destruct t as [|[|t]], r as [|[|r]], s as [|[|s]]; try lia; cbn [ex_n] in *;
      (destruct c as [|[|c]]; [| |lia]; try lia); (destruct d as [|[|d]]; [| |lia]; try lia); cbn in H1, H2; congruence.
  - intros t r k o g Ht Hr Ho Hg. destruct t as [|[|t]], r as [|[|r]]; try lia; (destruct k as [|k]; [|destruct k; discriminate]); try discriminate; cbn in Ho, Hg;
      injection Ho as <-; injection Hg as <-; (split; [lia|]); (split; [lia|]).
    + exists 1. split; [cbn; lia|]. split; [reflexivity|]. intros [|[|[|j]]] Hj; cbn in Hj; try lia; reflexivity.
    + exists 0. split; [cbn; lia|]. split; [reflexivity|]. intros [|[|[|j]]] Hj; cbn in Hj; try lia; reflexivity.
    + exists 0. split; [cbn; lia|]. split; [reflexivity|]. intros [|[|[|[|j]]]] Hj; cbn in Hj; try lia; reflexivity.
  - intros [|[|r]] Hr; try lia; cbn [ex_boundary]; repeat constructor; lia.
  - intros r v Hr Hv. apply Hown; [exact Hr|]. destruct r as [|[|r]]; try lia; cbn in Hv; repeat destruct Hv as [<-|Hv]; try contradiction; cbn; auto 10.
  - intros r s v Hr Hs N H1 H2. apply Hown in H1; [|exact Hr]. apply Hown in H2; [|exact Hs].
    destruct r as [|[|r]], s as [|[|s]]; try lia; cbn in H1, H2; cbn; lia.
Qed.
Example C64_example :
  topology_input 2 2 ex_nv ex_n ex_cells ex_orig ex_owners ex_boundary /\
  (forall r v, r < 2 -> In v (ex_boundary r) -> (v < 2 ^ 31)%Z).
Proof.
  split; [exact ex_input|]. intros [|[|r]] v Hr H; try lia; cbn in H; repeat destruct H as [<-|H]; try contradiction; lia.
Qed.
(** Two intervals, each owned by one rank and a ghost on the other one. *)
Example C64_computed :
  create_topology 2 (senders 2) (senders 2) (senders 2) (senders 2) (fun r i m => (r + i) mod m) (fun _ => 1) 1 (fun _ => 2)
    (fun _ r => match r with 0 => [10; 20; 20; 30]%Z | _ => [20; 30; 10; 20]%Z end) (fun _ r => match r with 0 => [5; 6]%Z | _ => [6; 5]%Z end)
    (fun _ r => [1 - r]) (fun _ => [20%Z]) 1 =
  Some (mkIM 1 3 3 [0] [0] [0] [0], [(mkIM 1 2 2 [0] [0] [0] [0], map Some [0; 1; 2; 0])]).
Proof. vm_compute. reflexivity. Qed.

(** The ranks that share a vertex: every row lists, with the owner first, the ranks that have
    the vertex on their boundary, each once; the owner is the same on all ranks. *)
Theorem C64_sharing_ranks :
  forall P nbx pick boundary,
    0 < P -> nbx_oracle P nbx -> (forall r i m, 1 < m -> pick r i m < m) ->
    (forall r, r < P -> StronglySorted Z.lt (boundary r)) ->
    (forall r v, r < P -> In v (boundary r) -> (0 <= v < 2 ^ 31)%Z) ->
    exists owner : Z -> nat, forall r, r < P -> exists rows,
      determine_sharing_ranks P nbx pick boundary r = Some rows /\
      Forall2 (fun v row => exists rest, row = owner v :: rest /\
                 Permutation row (filter (fun s => existsb (Z.eqb v) (boundary s)) (seq 0 P)))
              (boundary r) rows.
Proof. exact sharing_ok. Qed.
Print Assumptions C64_sharing_ranks.
Example C64_sharing_example :
  map (determine_sharing_ranks 3 (senders 3) (fun r i m => (r + i) mod m)
         (fun r => match r with 0 => [0; 4; 7]%Z | 1 => [4; 7; 9]%Z | _ => [0; 2; 7]%Z end)) [0; 1; 2] =
  [Some [[0; 2]; [1; 0]; [2; 1; 0]]; Some [[1; 0]; [2; 1; 0]; [1]]; Some [[0; 2]; [2]; [2; 1; 0]]].
Proof. vm_compute. reflexivity. Qed.

(** Without the bound the claim fails: the indices are 64-bit, but boundary vertices are sent
    as 32-bit numbers (Topology.cpp:144), so that vertex 0 of rank 0 and vertex 2^32 of rank 1
    are taken for one vertex and a check fails on rank 1 (without the checks, memory outside
    an array is written). *)
Definition wide_cells (t r : nat) : list Z := match t, r with 0, 0 => [0; 2 ^ 34]%Z | 0, 1 => [2 ^ 32; 2 ^ 34]%Z | _, _ => [] end.
Theorem C64_wide_indices_refuted :
  topology_input 2 1 (fun _ => 2) (fun _ r => if r <? 2 then 1 else 0) wide_cells (fun _ r => [Z.of_nat r]) (fun _ _ => []) (wide_cells 0) /\
  create_topology 2 (senders 2) (senders 2) (senders 2) (senders 2) (fun _ _ _ => 0) (fun _ => 1) 1 (fun _ => 2)
    wide_cells (fun _ r => [Z.of_nat r]) (fun _ _ => []) (wide_cells 0) 1 = None.
Proof.
  split; [|vm_compute; reflexivity].
  assert (Hown : forall r v, r < 2 -> has_owned_vertex 1 (fun _ => 2) (fun _ r => if r <? 2 then 1 else 0) wide_cells r v <-> In v (wide_cells 0 r)).
  { intros r v Hr. split.
    - intros (t & c & j & Ht & Hc & Hj & H). assert (t = 0) by lia. subst t. eapply nth_error_In; eauto.
    - intro H. destruct r as [|[|r]]; [| |lia]; cbn [wide_cells In] in H; destruct H as [<-|[<-|[]]];
        first [now (exists 0, 0, 0; repeat split; cbn; lia) | now (exists 0, 0, 1; repeat split; cbn; lia)]. }
  constructor.
  - intros; lia.
  - intros [|t] [|[|r]] Ht Hr; try lia; cbn; lia.
  - intros [|t] [|[|r]] v Ht Hr H; try lia; cbn [wide_cells In] in H; destruct H as [<-|[<-|[]]]; lia.
  - intros t r _ _. repeat first [apply NoDup_nil | apply NoDup_cons; [cbn; lia|]].
  - intros t r s [|c] [|d] g Ht Hr Hs Hc Hd H1 H2; try (destruct (_ <? _) in Hc; lia); try (destruct (_ <? _) in Hd; lia).
    cbn in H1, H2. injection H1 as <-. injection H2 as E. lia.
  - intros t r k o g Ht Hr Ho. destruct k; discriminate.
  - intros [|[|r]] Hr; try lia; cbn [wide_cells]; repeat constructor; lia.
  - intros r v Hr Hv. now apply Hown.
  - intros r s v Hr Hs N H1 H2. now apply Hown.
Qed.
Print Assumptions C64_wide_indices_refuted.
