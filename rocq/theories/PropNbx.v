(** Properties C07 and C08. *)
From Verif Require Import Base Nbx NbxProofs PcxProofs NbxRuns.

(** C07: any number [P] of ranks performs [C] consecutive calls; call [c] runs [K c] edge
    sets.  In every reachable state, a rank that has returned from call [c] got for
    edge set [i] exactly the ranks that named it, each as often as it was named. *)
Theorem C07_nbx_result :
  forall (P C : nat) (K : nat -> nat) (tag : nat -> nat -> nat) (edges : nat -> nat -> nat -> list nat),
    (forall c i c' i', c < C -> c' < C -> i < K c -> i' < K c' ->
       tag c i = tag c' i' -> c = c' /\ i = i') ->
    (forall c i s d, c < C -> i < K c -> s < P -> In d (edges c i s) -> d < P) ->
    forall st r c i, nsteps P C K tag edges ninit st ->
      r < P -> i < K c -> c < n_call st r ->
      Permutation (n_src st r c i) (senders P (edges c i) r).
Proof. exact nbx_safe. Qed.
Print Assumptions C07_nbx_result.

(** C07: no execution gets stuck: from every reachable state all ranks can return from
    all their calls. *)
Theorem C07_nbx_can_finish :
  forall (P C : nat) (K : nat -> nat) (tag : nat -> nat -> nat) (edges : nat -> nat -> nat -> list nat),
    (forall c i c' i', c < C -> c' < C -> i < K c -> i' < K c' ->
       tag c i = tag c' i' -> c = c' /\ i = i') ->
    (forall c i s d, c < C -> i < K c -> s < P -> In d (edges c i s) -> d < P) ->
    forall st, nsteps P C K tag edges ninit st ->
      exists st', nsteps P C K tag edges st st' /\ forall r, r < P -> n_call st' r = C.
Proof. exact nbx_can_finish. Qed.
Print Assumptions C07_nbx_can_finish.

(** The specification [senders] in words. *)
Theorem C07_senders :
  forall P es r s, In s (senders P es r) <-> s < P /\ In r (es s).
Proof. exact in_senders. Qed.
Print Assumptions C07_senders.

(** Three ranks, two calls, the first with two overlapped edge sets. *)
Definition ex_edges (c i r : nat) : list nat :=
  match c, i, r with
  | 0, 0, 0 => [1;2] | 0, 0, 1 => [2] | 0, 1, 2 => [0;2] | 1, 0, 1 => [0] | 1, 0, 0 => [0] | _, _, _ => []
  end.
Definition ex_K (c : nat) : nat := match c with 0 => 2 | _ => 1 end.
Definition ex_tag (c i : nat) : nat := 10 * c + i.

Example C07_ex :
  (forall c i c' i', c < 2 -> c' < 2 -> i < ex_K c -> i' < ex_K c' ->
     ex_tag c i = ex_tag c' i' -> c = c' /\ i = i') /\
  (forall c i s d, c < 2 -> i < ex_K c -> s < 3 -> In d (ex_edges c i s) -> d < 3) /\
  exists st, nsteps 3 2 ex_K ex_tag ex_edges ninit st /\
    (forall r, r < 3 -> n_call st r = 2) /\
    Permutation (n_src st 2 0 0) [0;1] /\ Permutation (n_src st 2 0 1) [2] /\
    Permutation (n_src st 0 1 0) [0;1].
Proof.
  assert (A : forall c i c' i', c < 2 -> c' < 2 -> i < ex_K c -> i' < ex_K c' ->
     ex_tag c i = ex_tag c' i' -> c = c' /\ i = i').
  { intros c i c' i' Hc Hc' Hi Hi' E. unfold ex_tag in E.
    assert (ex_K c <= 2 /\ ex_K c' <= 2) as (? & ?) by (destruct c, c'; cbn; lia). lia. }
  assert (B : forall c i s d, c < 2 -> i < ex_K c -> s < 3 -> In d (ex_edges c i s) -> d < 3).
  { intros c i s d _ _ _. destruct c as [|[|c]], i as [|[|i]], s as [|[|[|s]]]; cbn; lia. }
  split; [exact A|]. split; [exact B|].
  destruct (C07_nbx_can_finish 3 2 ex_K ex_tag ex_edges A B ninit (NRefl _ _ _ _ _ _)) as (st & S & F).
  exists st. split; [exact S|]. split; [exact F|].
  split; [|split].
  - apply (C07_nbx_result 3 2 ex_K ex_tag ex_edges A B st 2 0 0 S); rewrite ?F; cbn; lia.
  - apply (C07_nbx_result 3 2 ex_K ex_tag ex_edges A B st 2 0 1 S); rewrite ?F; cbn; lia.
  - apply (C07_nbx_result 3 2 ex_K ex_tag ex_edges A B st 0 1 0 S); rewrite ?F; cbn; lia.
Qed.

(** The hypothesis on tags is needed (the documentation of the [tag] parameter says
    so): two calls in a row with one tag, no rank names anybody in the first call,
    and still rank 1 returns [[0]] from it. *)
Theorem C07_same_tag_refuted :
  exists st, nsteps 2 2 (fun _ => 1) (fun _ _ => 7) st_edges ninit st /\
    n_call st 1 = 1 /\ n_src st 1 0 0 = [0] /\ senders 2 (st_edges 0 0) 1 = [].
Proof. exact same_tag_run. Qed.
Print Assumptions C07_same_tag_refuted.

(** C08: one call of [compute_graph_edges_pcx], no rank listed twice in an edge list:
    in every execution a rank that has returned got exactly the ranks that named it. *)
Theorem C08_pcx_result_partial :
  forall (P : nat) (edges : nat -> nat -> list nat),
    (forall s, s < P -> NoDup (edges 0 s)) ->
    forall st r, psteps P 1 edges pinit st -> r < P -> p_call st r = 1 ->
      Permutation (p_src st r 0) (senders P (edges 0) r).
Proof. exact pcx_safe. Qed.
Print Assumptions C08_pcx_result_partial.

(** C08: and every execution can be continued until all ranks have returned. *)
Theorem C08_pcx_can_finish :
  forall (P : nat) (edges : nat -> nat -> list nat),
    (forall s, s < P -> NoDup (edges 0 s)) ->
    forall st, psteps P 1 edges pinit st ->
      exists st', psteps P 1 edges st st' /\ forall r, r < P -> p_call st' r = 1.
Proof. exact pcx_can_finish. Qed.
Print Assumptions C08_pcx_can_finish.

Definition ex_pedges (c r : nat) : list nat := match r with 0 => [1;2] | 1 => [1] | 2 => [0] | _ => [] end.
Example C08_ex :
  exists st, psteps 3 1 ex_pedges pinit st /\ (forall r, r < 3 -> p_call st r = 1) /\
    Permutation (p_src st 1 0) [0;1].
Proof.
  assert (A : forall s, s < 3 -> NoDup (ex_pedges 0 s)).
  { intros s _. destruct s as [|[|[|s]]]; repeat constructor; cbn; lia. }
  destruct (C08_pcx_can_finish 3 ex_pedges A pinit (PRefl _ _ _ _)) as (st & S & F).
  exists st. split; [exact S|]. split; [exact F|].
  apply (C08_pcx_result_partial 3 ex_pedges A st 1 S); [lia|apply F; lia].
Qed.

(** C08 fails for two calls in a row: the sends are not synchronous and carry the same
    tag in every call, so a message of a rank already in the second call can be
    received in the first.  In call 0 only rank 2 names rank 1, in call 1 only rank 0
    does; here rank 1 returns [[0]] from call 0. *)
Theorem C08_back_to_back_refuted :
  exists st, psteps 3 2 bb_edges pinit st /\
    p_call st 1 = 1 /\ p_src st 1 0 = [0] /\ senders 3 (bb_edges 0) 1 = [2].
Proof. exact back_to_back_run. Qed.
Print Assumptions C08_back_to_back_refuted.
