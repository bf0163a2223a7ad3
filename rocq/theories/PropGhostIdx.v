(** C62: new numbers of ghosts, and maps between local numberings. *)
From Verif Require Import Base Algo Nbx World GhostIdx GhostIdxSpec GhostIdxProofs.
Open Scope nat_scope.

(** Every ghost gets the number that its owner gives to the index, on every process, for any
    number of threads and any order in which messages arrive. *)
Theorem C62_ghosts :
  forall P pcx owned ghosts owners threads,
    nbx_oracle P pcx -> ghost_input_ok P owned ghosts owners ->
    forall r, r < P -> exists l,
      compute_ghost_indices P pcx owned ghosts owners threads r = Some l /\
      length l = length (ghosts r) /\
      forall i g o k,
        nth_error (ghosts r) i = Some g -> nth_error (owners r) i = Some o ->
        nth_error (owned o) k = Some g ->
        nth_error l i = Some (new_number owned o k).
Proof. exact ghost_indices_ok. Qed.
Print Assumptions C62_ghosts.

Definition ex_owned (q : nat) : list Z := match q with 0 => [50; 7; 12]%Z | 1 => [] | _ => [3; 40]%Z end.
Definition ex_ghosts (q : nat) : list Z := match q with 0 => [40]%Z | 1 => [12; 3; 50; 3]%Z | _ => [7; 50]%Z end.
Definition ex_owners (q : nat) : list nat := match q with 0 => [2] | 1 => [0; 2; 0; 2] | _ => [0; 0] end.
Example C62_ghosts_example :
  nbx_oracle 3 (senders 3) /\ ghost_input_ok 3 ex_owned ex_ghosts ex_owners /\
  forall t, t = 1 \/ t = 4 ->
    map (compute_ghost_indices 3 (senders 3) ex_owned ex_ghosts ex_owners (fun _ => t)) [0; 1; 2] =
      [Some [4]; Some [2; 3; 0; 3]; Some [1; 0]].
Proof.
  split; [intros d r _; reflexivity|]. split.
  - split; [|split].
    + intros q q' i i' g Hq Hq' H H'. destruct q as [|[|[|q]]]; [| | |lia]; (destruct q' as [|[|[|q']]]; [| | |lia]);
        cbn in H, H'; destruct i as [|[|[|[|i]]]]; cbn in H; try discriminate; injection H as <-;
        destruct i' as [|[|[|[|i']]]]; cbn in H'; try discriminate; auto.
    + intros r Hr. destruct r as [|[|[|r]]]; [reflexivity..|lia].
    + intros r i g o Hr H H'. destruct r as [|[|[|r]]]; [| | |lia]; cbn in H, H';
        destruct i as [|[|[|[|[|i]]]]]; cbn in H, H'; try discriminate; injection H as <-; injection H' as <-; cbn; lia.
  - intros t [->| ->]; vm_compute; reflexivity.
Qed.

(** Applied to the local links, the computed map gives the global links; local indices that
    do not occur are marked with -1. *)
Theorem C62_local_to_global :
  forall global local,
    length global = length local ->
    (forall i g, nth_error global i = Some g -> g <> (-1)%Z) ->
    (forall i j k g g',
       nth_error local i = Some k -> nth_error local j = Some k ->
       nth_error global i = Some g -> nth_error global j = Some g' -> g = g') ->
    exists l, compute_local_to_global global local = Some l /\
      (forall i k g, nth_error local i = Some k -> nth_error global i = Some g -> nth_error l k = Some g) /\
      (forall k, k < length l -> ~ In k local -> nth_error l k = Some (-1)%Z) /\
      length l = match local with [] => 0 | _ => fold_right Nat.max 0 local + 1 end.
Proof. exact local_to_global_ok. Qed.
Print Assumptions C62_local_to_global.

Example C62_local_to_global_example :
  let global := [70; 30; 70; 50]%Z in let local := [1; 0; 1; 3] in
  (forall i g, nth_error global i = Some g -> g <> (-1)%Z) /\
  (forall i j k g g',
     nth_error local i = Some k -> nth_error local j = Some k ->
     nth_error global i = Some g -> nth_error global j = Some g' -> g = g') /\
  compute_local_to_global global local = Some [30; 70; -1; 50]%Z.
Proof.
  split; [|split; [|vm_compute; reflexivity]].
  - intros i g H. destruct i as [|[|[|[|[|i]]]]]; cbn in H; try discriminate; injection H as <-; discriminate.
  - intros i j k g g' H1 H2 H3 H4. destruct i as [|[|[|[|[|i]]]]]; cbn in H1, H3; try discriminate;
      destruct j as [|[|[|[|[|j]]]]]; cbn in H2, H4; congruence.
Qed.

(** Different sizes are reported. *)
Theorem C62_local_to_global_throws :
  forall global local, length global <> length local -> compute_local_to_global global local = None.
Proof. exact local_to_global_throws. Qed.
Print Assumptions C62_local_to_global_throws.

(** The map between two local numberings preserves the global index; in particular when
    the global indices happen to be 0, ..., n-1. *)
Theorem C62_local_to_local :
  forall l0 l1,
    length l0 = length l1 -> NoDup l1 -> (forall x, In x l0 -> In x l1) ->
    exists l, compute_local_to_local l0 l1 = Some l /\ length l = length l0 /\
      forall i x, nth_error l0 i = Some x -> exists k, nth_error l i = Some k /\ nth_error l1 k = Some x.
Proof. exact local_to_local_ok. Qed.
Print Assumptions C62_local_to_local.

Example C62_local_to_local_example :
  NoDup [9; 7; 5]%Z /\ (forall x, In x [5; 9; 7]%Z -> In x [9; 7; 5]%Z) /\
  compute_local_to_local [5; 9; 7]%Z [9; 7; 5]%Z = Some [2; 0; 1] /\
  compute_local_to_local [2; 0; 1]%Z [1; 2; 0]%Z = Some [1; 2; 0].
Proof.
  split; [repeat first [apply NoDup_nil | apply NoDup_cons; [cbn; lia|]]|]. split; [intros x H; cbn in *; lia|].
  vm_compute. split; reflexivity.
Qed.

(** Without uniqueness (not asked for in the documentation) the shortcut for contiguous
    indices answers wrongly: 1 is in place 2 of the second numbering, the answer is 1. *)
Theorem C62_repeated_indices_refuted :
  exists l0 l1 l, length l0 = length l1 /\ (forall x, In x l0 -> In x l1) /\
    compute_local_to_local l0 l1 = Some l /\
    exists i x k, nth_error l0 i = Some x /\ nth_error l i = Some k /\ nth_error l1 k <> Some x.
Proof.
  exists [1; 0; 3; 0]%Z, [0; 0; 1; 3]%Z, [1; 0; 3; 0]. split; [reflexivity|]. split.
  - intros x H. cbn in *. lia.
  - split; [vm_compute; reflexivity|]. exists 0, 1%Z, 1. split; [reflexivity|]. split; [reflexivity|]. cbn. discriminate.
Qed.
Print Assumptions C62_repeated_indices_refuted.
