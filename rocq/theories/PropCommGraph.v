(** Property C96: the communication graph of an index map. *)
From Verif Require Import Base BaseProofs AdjList AdjListSpec IndexMap IndexMapSpec CommGraph CommGraphSpec CommGraphProofs.

(** On the root, the row of a rank has an edge to each rank that ghosts its indices, with the
    number of these and the shared-memory marker.  Nodes have numbers of owned and ghost indices. *)
Theorem C96_root : forall P maps node root, maps_ok P maps -> root < P -> exists g,
  comm_graph P maps node root root = Some (g, map (fun r => (im_hi (maps r) - im_lo (maps r), length (im_ghosts (maps r)))) (seq 0 P)) /\
  stores g (map (edges_from P maps node) (seq 0 P)).
Proof. intros P maps node root H Hr. exact (comm_graph_ok P maps node H root Hr). Qed.
Print Assumptions C96_root.

(** Three ranks: the first two share memory, all ghost something of rank 0, which ghosts an index of rank 1. *)
Definition three (r : nat) : imap :=
  match r with
  | 0 => mkIM 0 2 3 [2] [1] [1] [1; 2]
  | 1 => mkIM 2 3 3 [1; 0] [0; 0] [0] [0]
  | _ => mkIM 3 3 3 [0] [0] [0] []
  end.
Definition box (r : nat) : nat := if r <? 2 then 0 else 1.
Example three_ok : maps_ok 3 three.
Proof.
  split.
  - reflexivity.
  - intros [|[|r]] H; [reflexivity|reflexivity|lia].
  - intros [|[|[|r]]] H; cbn; lia.
  - intros [|[|[|r]]] H; [reflexivity|reflexivity|reflexivity|lia].
  - intros [|[|[|r]]] H; cbn; repeat first [apply NoDup_nil | apply NoDup_cons; [cbn; lia|]].
  - intros [|[|[|r]]] k g o Hr Hg Ho; [| | |lia]; destruct k as [|[|k]]; cbn in Hg, Ho; try discriminate; try (destruct k; discriminate);
      inversion Hg; inversion Ho; subst; unfold owns; cbn; lia.
  - intros [|[|[|r]]] H; [| | |lia]; (split; [cbn; repeat constructor|]); intro s; cbn; tauto.
  - intros [|[|[|r]]] H; [| | |lia]; (split; [cbn; repeat constructor|]); intros s; cbn; (split; [intros Hs; intuition subst; cbn; lia|]);
      intros (Hs & Hi); destruct s as [|[|[|s]]]; cbn in Hi; lia.
Qed.
Example C96_root_example : comm_graph 3 three box 2 2 = Some (mkAdj [(1, 2, 1); (2, 1, 0); (0, 1, 1)] [0; 2; 3; 3], [(2, 1); (1, 2); (0, 1)]).
Proof. reflexivity. Qed.

(** Other ranks get a graph of as many nodes, without edges and with zero sizes. *)
Theorem C96_other : forall P maps node root r, r <> root -> exists g,
  comm_graph P maps node root r = Some (g, repeat (0, 0) P) /\ stores g (repeat [] P).
Proof. exact comm_graph_other. Qed.
Print Assumptions C96_other.
Example C96_other_example : comm_graph 3 three box 2 1 = Some (mkAdj [] [0; 0; 0; 0], [(0, 0); (0, 0); (0, 0)]).
Proof. reflexivity. Qed.

(** The neighbours that share memory: receivers and owners on the same node, in order. *)
Theorem C96_rank_type : forall P maps node, maps_ok P maps -> forall r, r < P ->
  fst (rank_type P maps node r) = filter (fun q => node q =? node r) (receivers P maps r) /\
  forall q, In q (snd (rank_type P maps node r)) <-> In q (im_owners (maps r)) /\ node q = node r.
Proof.
  intros P maps node H r Hr. rewrite (rank_type_ok P maps node H r Hr). cbn [fst snd]. split.
  - now rewrite (dest_receivers P maps H r Hr).
  - intro q. now rewrite filter_In, (proj2 (mo_src _ _ H r Hr) q), Nat.eqb_eq.
Qed.
Print Assumptions C96_rank_type.
Example C96_rank_type_example : map (rank_type 3 three box) [0; 1; 2] = [([1], [1]); ([0], [0]); ([], [])].
Proof. reflexivity. Qed.

(** The lists made for NetworkX have each edge of the graph once, with its source, and each node. *)
Theorem C96_data : forall g nd rows, stores g rows -> comm_graph_data g nd =
  Some (concat (map (fun n => map (fun ewl => (n, fst (fst ewl), snd ewl, snd (fst ewl))) (nth n rows [])) (seq 0 (length rows))),
        map (fun n => (n, fst (nth n nd (0, 0)), snd (nth n nd (0, 0)))) (seq 0 (length nd))).
Proof. exact data_ok. Qed.
Print Assumptions C96_data.
Example C96_data_example : (g <- comm_graph 3 three box 0 0 ;; comm_graph_data (fst g) (snd g)) =
  Some ([(0, 1, 1, 2); (0, 2, 0, 1); (1, 0, 1, 1)], [(0, 2, 1); (1, 1, 2); (2, 0, 1)]).
Proof. reflexivity. Qed.

(** From Python the graph is on rank 0, whichever root is asked for... *)
Theorem C96_python_partial : forall P maps node root, maps_ok P maps -> 0 < P -> exists g,
  py_comm_graph P maps node root 0 = Some (g, map (fun r => (im_hi (maps r) - im_lo (maps r), length (im_ghosts (maps r)))) (seq 0 P)) /\
  stores g (map (edges_from P maps node) (seq 0 P)).
Proof. intros P maps node root H HP. exact (comm_graph_ok P maps node H 0 HP). Qed.
Print Assumptions C96_python_partial.
Example C96_python_partial_example : exists nd, py_comm_graph 3 three box 2 0 = Some (mkAdj [(1, 2, 1); (2, 1, 0); (0, 1, 1)] [0; 2; 3; 3], nd).
Proof. eexists. reflexivity. Qed.

(** ...so another root gets no edges although there are some. *)
Theorem C96_python_refuted : exists P maps node root, maps_ok P maps /\ root < P /\
  concat (map (edges_from P maps node) (seq 0 P)) <> [] /\
  exists g, py_comm_graph P maps node root root = Some (g, repeat (0, 0) P) /\ stores g (repeat [] P).
Proof.
  exists 3, three, box, 2. split; [exact three_ok|]. split; [lia|]. split; [discriminate|].
  exact (comm_graph_other 3 three box 0 2 ltac:(discriminate)).
Qed.
Print Assumptions C96_python_refuted.
