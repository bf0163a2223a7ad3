(** Model of the consensus algorithms of cpp/dolfinx/common/MPI.cpp as transition
    systems: [nbx_consensus_rounds] (lines 179-287) and [compute_graph_edges_pcx]
    (lines 104-165).

    Every rank performs a sequence of calls.  A step is one MPI call of one rank, or a
    match of a message with a posted receive by the MPI library.  Every interleaving
    of such steps is an execution.  Following the MPI standard: a synchronous send
    completes only when matched; [MPI_Test]/[MPI_Testall] may report "not complete" at
    any time (so no assumption on progress speed is built in); a non-blocking barrier
    completes only after every rank has entered it; a receive from [MPI_ANY_SOURCE]
    may match any message with its tag. *)
From Verif Require Import Base.

(** A message: source, tag, destination.  Its content is never inspected. *)
Definition msg := (nat * nat * nat)%type.
Definition msg_eqb (a b : msg) : bool :=
  let '(s, t, d) := a in let '(s', t', d') := b in
  (s =? s') && (t =? t') && (d =? d').

(** Functional update of per-rank data. *)
Definition fset {A} (f : nat -> A) (r : nat) (v : A) : nat -> A :=
  fun q => if q =? r then v else f q.
Definition fset3 {A} (f : nat -> nat -> nat -> A) (r c i : nat) (v : A) : nat -> nat -> nat -> A :=
  fun r' c' i' => if (r' =? r) && (c' =? c) && (i' =? i) then v else f r' c' i'.

(** One persistent receive of [recv_request]. *)
Inductive listener := LNone | LPosted | LMatched (source : nat).

(** Program counter inside one call. *)
Inductive npc :=
| Idle                       (* call not entered *)
| Issue (rest : list msg)    (* lines 203-213: synchronous sends still to be issued *)
| Drain (i : nat)            (* lines 223-241: draining listener [i] *)
| CheckSends                 (* lines 251-266 *)
| CheckBarrier               (* lines 242-250 *)
| Cancel (i : nat).          (* lines 273-286: cancelling listener [i] *)

Record nstate := mkN {
  n_call : nat -> nat;                     (* call being executed by a rank *)
  n_pc : nat -> npc;
  n_lis : nat -> nat -> nat -> listener;   (* rank, call, edge set *)
  n_src : nat -> nat -> nat -> list nat;   (* [src_ranks]: rank, call, edge set *)
  n_bar : nat -> nat -> bool;              (* rank has entered the barrier of a call *)
  n_net : list msg }.                      (* issued and not yet matched *)

Section System.
(** [P] ranks; [C] successive calls; call [c] has [K c] edge sets with tags [tag c i];
    [edges c i r] is the edge set [i] passed by rank [r] in call [c]. *)
Variables (P C : nat) (K : nat -> nat) (tag : nat -> nat -> nat)
          (edges : nat -> nat -> nat -> list nat).

(** lines 203-213: the sends of a rank, in program order. *)
Definition sends (c r : nat) : list msg :=
  flat_map (fun i => map (fun d => (r, tag c i, d)) (edges c i r)) (seq 0 (K c)).

Definition ninit : nstate :=
  mkN (fun _ => 0) (fun _ => Idle) (fun _ _ _ => LNone) (fun _ _ _ => []) (fun _ _ => false) [].

Definition set_pc (st : nstate) (r : nat) (p : npc) : nstate :=
  mkN (n_call st) (fset (n_pc st) r p) (n_lis st) (n_src st) (n_bar st) (n_net st).

Inductive nstep : nstate -> nstate -> Prop :=
(* lines 185-192: enter the call, post a listener per edge set *)
| NEnter st r : r < P -> n_call st r < C -> n_pc st r = Idle ->
    nstep st (mkN (n_call st) (fset (n_pc st) r (Issue (sends (n_call st r) r)))
      (fun r' c' i' => if (r' =? r) && (c' =? n_call st r) && (i' <? K c') then LPosted
                       else n_lis st r' c' i')
      (n_src st) (n_bar st) (n_net st))
(* MPI_Issend *)
| NIssue st r m l : r < P -> n_pc st r = Issue (m :: l) ->
    nstep st (mkN (n_call st) (fset (n_pc st) r (Issue l)) (n_lis st) (n_src st) (n_bar st)
                  (n_net st ++ [m]))
| NIssued st r : r < P -> n_pc st r = Issue [] -> nstep st (set_pc st r (Drain 0))
(* the MPI library matches a message with a listener carrying its tag *)
| NMatch st n1 n2 s d c i : n_net st = n1 ++ (s, tag c i, d) :: n2 ->
    n_lis st d c i = LPosted ->
    nstep st (mkN (n_call st) (n_pc st) (fset3 (n_lis st) d c i (LMatched s)) (n_src st)
                  (n_bar st) (n1 ++ n2))
(* MPI_Test(&recv_request[i]) succeeds: record the source, post again *)
| NHit st r i s : r < P -> n_pc st r = Drain i -> i < K (n_call st r) ->
    n_lis st r (n_call st r) i = LMatched s ->
    nstep st (mkN (n_call st) (n_pc st) (fset3 (n_lis st) r (n_call st r) i LPosted)
                  (fset3 (n_src st) r (n_call st r) i (n_src st r (n_call st r) i ++ [s]))
                  (n_bar st) (n_net st))
(* ... or reports "not complete" *)
| NMiss st r i : r < P -> n_pc st r = Drain i -> i < K (n_call st r) ->
    nstep st (set_pc st r (Drain (S i)))
(* line 242: if (barrier_active) *)
| NBranch st r : r < P -> n_pc st r = Drain (K (n_call st r)) ->
    nstep st (set_pc st r (if n_bar st r (n_call st r) then CheckBarrier else CheckSends))
(* MPI_Testall true: all synchronous sends of this call matched; enter the barrier *)
| NSendsDone st r : r < P -> n_pc st r = CheckSends ->
    (forall i d, i < K (n_call st r) -> ~ In (r, tag (n_call st r) i, d) (n_net st)) ->
    nstep st (mkN (n_call st) (fset (n_pc st) r (Drain 0)) (n_lis st) (n_src st)
                  (fun r' c' => if (r' =? r) && (c' =? n_call st r) then true else n_bar st r' c')
                  (n_net st))
| NSendsNot st r : r < P -> n_pc st r = CheckSends -> nstep st (set_pc st r (Drain 0))
(* MPI_Test(&barrier_request) true: every rank has entered the barrier of this call *)
| NBarrierDone st r : r < P -> n_pc st r = CheckBarrier ->
    (forall q, q < P -> n_bar st q (n_call st r) = true) ->
    nstep st (set_pc st r (Cancel 0))
| NBarrierNot st r : r < P -> n_pc st r = CheckBarrier -> nstep st (set_pc st r (Drain 0))
(* lines 273-286: the receive had already matched: record its source *)
| NCancelMatched st r i s : r < P -> n_pc st r = Cancel i -> i < K (n_call st r) ->
    n_lis st r (n_call st r) i = LMatched s ->
    nstep st (mkN (n_call st) (fset (n_pc st) r (Cancel (S i)))
                  (fset3 (n_lis st) r (n_call st r) i LNone)
                  (fset3 (n_src st) r (n_call st r) i (n_src st r (n_call st r) i ++ [s]))
                  (n_bar st) (n_net st))
(* ... or it is cancelled *)
| NCancelFree st r i : r < P -> n_pc st r = Cancel i -> i < K (n_call st r) ->
    n_lis st r (n_call st r) i = LPosted ->
    nstep st (mkN (n_call st) (fset (n_pc st) r (Cancel (S i)))
                  (fset3 (n_lis st) r (n_call st r) i LNone) (n_src st) (n_bar st) (n_net st))
(* return from the call *)
| NReturn st r : r < P -> n_pc st r = Cancel (K (n_call st r)) ->
    nstep st (mkN (fset (n_call st) r (S (n_call st r))) (fset (n_pc st) r Idle) (n_lis st)
                  (n_src st) (n_bar st) (n_net st)).

Inductive nsteps : nstate -> nstate -> Prop :=
| NRefl st : nsteps st st
| NTrans st st' st'' : nstep st st' -> nsteps st' st'' -> nsteps st st''.
End System.

(** The specification: ranks that named [r], with multiplicity. *)
Definition senders (P : nat) (edges : nat -> list nat) (r : nat) : list nat :=
  flat_map (fun s => map (fun _ => s) (filter (Nat.eqb r) (edges s))) (seq 0 P).

(** ** PCX, MPI.cpp:104-165 *)
Inductive ppc :=
| PIdle
| PIssue (rest : list nat)      (* destinations still to send to *)
| PWait                         (* waiting for the reduce-scatter *)
| PRecv (left : nat).           (* receives still to do *)

Record pstate := mkP {
  p_call : nat -> nat;
  p_pc : nat -> ppc;
  p_joined : nat -> nat -> bool;        (* rank has started the reduce-scatter of a call *)
  p_src : nat -> nat -> list nat;       (* [other_ranks]: rank, call *)
  p_net : list (nat * nat) }.           (* (source, destination), in order of issue *)

Section Pcx.
Variables (P C : nat) (edges : nat -> nat -> list nat).   (* call, rank *)

(** [edge_count_send] summed over the ranks. *)
Definition in_count (c r : nat) : nat :=
  lsum (map (fun s => if existsb (Nat.eqb r) (edges c s) then 1 else 0) (seq 0 P)).

Definition pinit : pstate := mkP (fun _ => 0) (fun _ => PIdle) (fun _ _ => false) (fun _ _ => []) [].

Inductive pstep : pstate -> pstate -> Prop :=
(* MPI_Ireduce_scatter_block *)
| PEnter st r : r < P -> p_call st r < C -> p_pc st r = PIdle ->
    pstep st (mkP (p_call st) (fset (p_pc st) r (PIssue (edges (p_call st r) r)))
      (fun q c => if (q =? r) && (c =? p_call st r) then true else p_joined st q c)
      (p_src st) (p_net st))
(* MPI_Isend *)
| PSend st r d l : r < P -> p_pc st r = PIssue (d :: l) ->
    pstep st (mkP (p_call st) (fset (p_pc st) r (PIssue l)) (p_joined st) (p_src st)
                  (p_net st ++ [(r, d)]))
| PSent st r : r < P -> p_pc st r = PIssue [] ->
    pstep st (mkP (p_call st) (fset (p_pc st) r PWait) (p_joined st) (p_src st) (p_net st))
(* MPI_Wait: the reduction needs every rank's contribution *)
| PReduced st r : r < P -> p_pc st r = PWait ->
    (forall q, q < P -> p_joined st q (p_call st r) = true) ->
    pstep st (mkP (p_call st) (fset (p_pc st) r (PRecv (in_count (p_call st r) r)))
                  (p_joined st) (p_src st) (p_net st))
(* MPI_Recv(MPI_ANY_SOURCE): any source, but messages of one source in order *)
| PTake st r n s n1 n2 : r < P -> p_pc st r = PRecv (S n) ->
    p_net st = n1 ++ (s, r) :: n2 -> ~ In (s, r) n1 ->
    pstep st (mkP (p_call st) (fset (p_pc st) r (PRecv n)) (p_joined st)
                  (fun q c => if (q =? r) && (c =? p_call st r) then p_src st q c ++ [s]
                              else p_src st q c)
                  (n1 ++ n2))
(* return (the sends are standard-mode: their completion does not wait for a match) *)
| PReturn st r : r < P -> p_pc st r = PRecv 0 ->
    pstep st (mkP (fset (p_call st) r (S (p_call st r))) (fset (p_pc st) r PIdle)
                  (p_joined st) (p_src st) (p_net st)).

Inductive psteps : pstate -> pstate -> Prop :=
| PRefl st : psteps st st
| PTrans st st' st'' : pstep st st' -> psteps st' st'' -> psteps st st''.
End Pcx.
