(** Property C80. *)
From Verif Require Import Base BaseProofs Algo Nbx World IndexMap CellTypes DualGraph DualGraphSpec DualGraphExtra DestRanks DestRanksSpec DestRanksProofs.
Open Scope nat_scope.

(** C80: in a graph whose links go both ways, every node goes first to its destination and
    then, once each, to the other destinations of the nodes it is linked to. *)
Theorem C80_destinations :
  forall P nbx set3 set2 graph node_disp part, nbx_oracle P nbx ->
  (forall r, r < P -> lists_set (set3 r)) -> (forall r, r < P -> lists_set (set2 r)) ->
  (forall r, r < P -> node_disp r = psums (map (fun q => length (graph q)) (seq 0 P))) ->
  (forall r, r < P -> length (part r) = length (graph r)) ->
  (forall r links g, r < P -> In links (graph r) -> In g links -> g < first_node graph P) ->
  (forall g h, linked P graph g h -> linked P graph h g) ->
  forall r, r < P ->
  exists rows, destination_ranks P nbx set3 set2 graph node_disp part r = Some rows /\ length rows = length (graph r) /\
    forall i row p, nth_error rows i = Some row -> nth_error (part r) i = Some p ->
      hd_error row = Some p /\ NoDup row /\
      forall d, In d row <-> d = p \/ exists h, linked P graph (first_node graph r + i) h /\ goes_to P graph part h d.
Proof. exact destinations_ok. Qed.
Print Assumptions C80_destinations.

Definition dec2 : forall x y : nat * nat, {x = y} + {x <> y}.
Proof. decide equality; apply Nat.eq_dec. Defined.
Definition dec3 : forall x y : nat * (nat * nat), {x = y} + {x <> y}.
Proof. decide equality; [apply dec2|apply Nat.eq_dec]. Defined.
Example dr_set3_ok : forall r : nat, lists_set (fun l => rev (nodup dec3 l)).
Proof. intros r l. split; [apply NoDup_rev, NoDup_nodup|]. intro x. rewrite <- in_rev. apply nodup_In. Qed.
Example dr_set2_ok : forall r : nat, lists_set (fun l => rev (nodup dec2 l)).
Proof. intros r l. split; [apply NoDup_rev, NoDup_nodup|]. intro x. rewrite <- in_rev. apply nodup_In. Qed.

(** Example: a path of four nodes on three ranks, the middle rank has none. *)
Definition dr_graph (r : nat) : list (list nat) := nth r [[[1]; [0; 2]]; []; [[1; 3]; [2]]] [].
Definition dr_part (r : nat) : list nat := nth r [[2; 1]; []; [0; 0]] [].
Definition dr_run (graph : nat -> list (list nat)) (part : nat -> list nat) (P r : nat) : option (list (list nat)) :=
  destination_ranks P (senders P) (fun _ l => rev (nodup dec3 l)) (fun _ l => rev (nodup dec2 l)) graph
    (fun _ => psums (map (fun q => length (graph q)) (seq 0 P))) part r.
Lemma dr_linked g h : linked 3 dr_graph g h <-> In (g, h) [(0, 1); (1, 0); (1, 2); (2, 1); (2, 3); (3, 2)].
Proof.
  split.
  - intros (r & i & links & Hr & -> & E & H). destruct r as [|[|[|r]]]; [| | |lia]; destruct i as [|[|i]]; cbn in E; try discriminate; try (destruct i; discriminate); injection E as <-; cbn in H; decompose [or] H; subst; try contradiction; vm_compute; auto 10.
  - intro H. cbn in H. decompose [or] H; try contradiction; match goal with K : _ = (g, h) |- _ => injection K as <- <- end;
      [exists 0, 0, [1]|exists 0, 1, [0; 2]|exists 0, 1, [0; 2]|exists 2, 0, [1; 3]|exists 2, 0, [1; 3]|exists 2, 1, [2]];
      (split; [lia|]); (split; [reflexivity|]); (split; [reflexivity|]); cbn; auto.
Qed.
Example C80_destinations_hyps :
  nbx_oracle 3 (senders 3) /\ (forall r, r < 3 -> length (dr_part r) = length (dr_graph r)) /\
  (forall r links g, r < 3 -> In links (dr_graph r) -> In g links -> g < first_node dr_graph 3) /\
  (forall g h, linked 3 dr_graph g h -> linked 3 dr_graph h g).
Proof.
  split; [intros d r _; reflexivity|]. split; [intros [|[|[|r]]] Hr; [reflexivity..|lia]|]. split.
  - intros [|[|[|r]]] links g Hr Hl Hg; [| | |lia]; cbn in Hl; decompose [or] Hl; subst; try contradiction; cbn in Hg; decompose [or] Hg; subst; try contradiction; vm_compute; lia.
  - intros g h H. apply dr_linked in H. apply dr_linked. cbn in H. decompose [or] H; try contradiction; match goal with K : _ = (g, h) |- _ => injection K as <- <- end; cbn; auto 10.
Qed.
Example C80_destinations_case :
  map (dr_run dr_graph dr_part 3) [0; 1; 2] = [Some [[2; 1]; [1; 2; 0]]; Some []; Some [[0; 1]; [0]]].
Proof. vm_compute. reflexivity. Qed.

(** If links do not go both ways, more sizes can be received than there is room for. *)
Definition dr_directed (r : nat) : list (list nat) := nth r [[[1]]; [[]]] [].
Theorem C80_directed_refuted :
  (forall r links g, r < 2 -> In links (dr_directed r) -> In g links -> g < first_node dr_directed 2) /\
  dr_run dr_directed (fun r => [r]) 2 1 = None.
Proof.
  split; [|vm_compute; reflexivity]. intros [|[|r]] links g Hr Hl Hg; [| |lia]; cbn in Hl; destruct Hl as [<-|[]]; cbn in Hg; [destruct Hg as [<-|[]]; vm_compute; lia|contradiction].
Qed.
Print Assumptions C80_directed_refuted.

(** The partition of a parent mesh: if the parents are owned cells, every cell stays on its
    process, and is also sent, once each, to the processes with a cell that shares a facet. *)
Theorem C80_identity :
  forall P nbx set3 set2 sched tsort threads pmaps parent_cell t cells, 1 < P -> nbx_oracle P nbx ->
  (forall r, r < P -> lists_set (set3 r)) -> (forall r, r < P -> lists_set (set2 r)) ->
  (forall q, q < P -> input_ok [t] [cells q]) ->
  (forall q j l, q < P -> Permutation (sched q j l) l) -> (forall q, q < P -> sorts_facets (tsort q)) -> (forall q, q < P -> 0 < threads q) ->
  (N.of_nat (lsum (map (fun q => num_facets [t] [cells q]) (seq 0 P))) < 2 ^ 63)%N ->
  shared_by_at_most P (fun _ => [t]) (fun q => [cells q]) 2 ->
  (forall q, q < P -> num_cells [t] [cells q] <= length (parent_cell q) /\ forall c, In c (parent_cell q) -> c < size_local (pmaps q)) ->
  forall r, r < P ->
  exists rows, identity_partitioner P nbx set3 set2 sched tsort threads pmaps parent_cell t cells r = Some rows /\
    length rows = num_cells [t] [cells r] /\
    forall c row, nth_error rows c = Some row -> hd_error row = Some r /\ NoDup row /\
      forall d, In d row <-> d = r \/ d < P /\ exists c', c' < num_cells [t] [cells d] /\
        adjacent P (fun _ => [t]) (fun q => [cells q]) (first_cell (fun _ => [t]) (fun q => [cells q]) r + c) (first_cell (fun _ => [t]) (fun q => [cells q]) d + c').
Proof. exact identity_ok. Qed.
Print Assumptions C80_identity.

(** Example: the refined interval of C79 *)
Definition id_cells (r : nat) : list Z := nth r [[0; 1; 1; 3; 3; 2]; [2; 4]]%Z [].
Definition id_pmap (r : nat) : imap := nth r [mkIM 0 2 3 [2] [1] [1] [1]; mkIM 2 3 3 [1] [0] [0] [0]] (mkIM 0 0 0 [] [] [] []).
Definition id_parents (r : nat) : list nat := nth r [[0; 1; 1]; [0]] [].
Example C80_identity_hyps :
  (forall q, q < 2 -> input_ok [Interval] [id_cells q]) /\
  (forall (q j : nat) (l : list (nat * frow)), q < 2 -> Permutation (rev l) l) /\ sorts_facets lex_sort /\
  (N.of_nat (lsum (map (fun q => num_facets [Interval] [id_cells q]) (seq 0 2))) < 2 ^ 63)%N /\
  shared_by_at_most 2 (fun _ => [Interval]) (fun q => [id_cells q]) 2 /\
  (forall q, q < 2 -> num_cells [Interval] [id_cells q] <= length (id_parents q) /\ forall c, In c (id_parents q) -> c < size_local (id_pmap q)) /\
  map (id_graph 2 (senders 2) (fun _ _ l => rev l) (fun _ => lex_sort) (fun _ => 2) Interval id_cells) [0; 1] =
    [[[1]; [0; 2]; [1; 3]]; [[2]]] /\
  map (id_part id_pmap id_parents Interval id_cells) [0; 1] = [Some [0; 0; 0]; Some [1]] /\
  map (dr_run (fun r => nth r [[[1]; [0; 2]; [1; 3]]; [[2]]] []) (fun r => nth r [[0; 0; 0]; [1]] []) 2) [0; 1] = [Some [[0]; [0]; [0; 1]]; Some [[1; 0]]].
Proof.
  split; [|split; [|split; [|split; [|split; [|split; [|split]]]]]].
  - intros [|[|q]] Hq; [| |lia]; (split; [reflexivity|]; split; [exists 1; split; [lia|]; repeat constructor|]; repeat (constructor; [repeat constructor; lia|]); constructor).
  - intros q j l _. symmetry. apply Permutation_rev.
  - exact lex_sort_ok.
  - vm_compute. reflexivity.
  - apply check_shared_ok. vm_compute. reflexivity.
  - intros [|[|q]] Hq; [| |lia]; (split; [vm_compute; lia|]); intros c Hc; cbn in Hc; decompose [or] Hc; subst; try contradiction; vm_compute; lia.
  - vm_compute. reflexivity.
  - vm_compute. auto.
Qed.

(** Cells whose parents are ghosts go to the owners of the parents, except for the first ghost,
    whose children stay. *)
Theorem C80_owner :
  forall m parents nc r i c, i < nc -> nc <= length parents -> length (im_owners m) = num_ghosts m ->
  (forall c, In c parents -> c < size_local m + num_ghosts m) ->
  nth_error parents i = Some c ->
  exists dests, identity_destinations m parents nc r = Some dests /\ length dests = nc /\
    (c < size_local m -> nth_error dests i = Some r) /\
    (size_local m < c -> nth_error dests i = nth_error (im_owners m) (c - size_local m)) /\
    (c = size_local m -> nth_error dests i = Some r).
Proof.
  intros m parents nc r i c Hi Hn Ho Hp Ei.
  set (f := fun c => if size_local m <? c then nth (c - size_local m) (im_owners m) 0 else r).
  assert (E : identity_destinations m parents nc r = Some (map (fun i => f (nth i parents 0)) (seq 0 nc))).
  { apply BaseProofs.omap_map. intros j Hj. apply in_seq in Hj. rewrite (nth_error_nth' _ 0) by lia. cbn [obind]. unfold f. destruct (Nat.ltb_spec (size_local m) (nth j parents 0)) as [L|L]; [|reflexivity].
    apply nth_error_nth'. assert (Hj' : j < length parents) by lia. pose proof (Hp (nth j parents 0) (nth_In parents 0 Hj')). lia. }
  exists (map (fun i => f (nth i parents 0)) (seq 0 nc)). split; [exact E|]. split; [now rewrite map_length, seq_length|].
  assert (En : nth_error (map (fun i => f (nth i parents 0)) (seq 0 nc)) i = Some (f c)) by (rewrite nth_error_map, BaseProofs.nth_error_seq by exact Hi; cbn [option_map plus]; now rewrite (nth_error_nth _ _ _ Ei)).
  rewrite En. unfold f. destruct (Nat.ltb_spec (size_local m) c) as [L|L].
  - split; [intro; lia|]. split; [|intro; lia]. intros _. symmetry. apply nth_error_nth'. pose proof (Hp c (nth_error_In _ _ Ei)). lia.
  - split; [reflexivity|]. split; [intro; lia|reflexivity].
Qed.
Print Assumptions C80_owner.

Theorem C80_first_ghost_refuted :
  identity_destinations (id_pmap 0) [2] 1 0 = Some [0] /\ nth_error (im_owners (id_pmap 0)) (2 - size_local (id_pmap 0)) = Some 1.
Proof. vm_compute. auto. Qed.
Print Assumptions C80_first_ghost_refuted.
