(** C61: nodes of a graph, or cells, sent to their destination ranks. *)
From Verif Require Import Base Algo Nbx World Distribute DistributeSpec DistributeProofs.
Open Scope nat_scope.

(** Adjacency lists: rank r receives the nodes it owns (their first destination is r), then
    the other nodes that go to r, each exactly once, with their links, the rank they come
    from, their global number, and the owner of the ghosts. The first node of some rank has
    the largest number of links. *)
Theorem C61_adjacency_list :
  forall P nbx ls ds,
    nbx_oracle P nbx -> destinations_ok P ds ->
    (forall q, q < P -> length (ls q) = length (ds q)) ->
    (forall q row, q < P -> In row (ls q) ->
       exists s first rest, s < P /\ ls s = first :: rest /\ length row <= length first) ->
    forall r, r < P -> exists own gh rows owners,
      owned_nodes P ds r own /\ ghost_nodes P ds r gh /\
      Forall2 (fun n row => nth_error (ls (fst n)) (snd n) = Some row) (own ++ gh) rows /\
      Forall2 (fun n o => exists d, hd_error (nth (snd n) (ds (fst n)) []) = Some d /\ o = Z.of_nat d) gh owners /\
      distribute P nbx ls ds r =
        Some ((concat rows, map Z.of_nat (psums (map (@length Z) rows))),
              (map fst (own ++ gh), (map (node_number (fun s => length (ls s))) (own ++ gh), owners))).
Proof. exact distribute_statement. Qed.
Print Assumptions C61_adjacency_list.

Definition ex_links (q : nat) : list (list Z) :=
  match q with 0 => [[10; 11; 12]; [13]]%Z | 1 => [] | _ => [[20; 21]; []; [22; 23; 24]]%Z end.
Definition ex_dest (q : nat) : list (list nat) :=
  match q with 0 => [[1; 0]; [0; 2]] | 1 => [] | _ => [[1]; [1; 2]; [0; 1]] end.
Lemma ex_dest_ok : destinations_ok 3 ex_dest.
Proof.
  intros s di Hs H. destruct s as [|[|[|s]]]; [| | |lia]; cbn in H; repeat destruct H as [<-|H]; try destruct H;
    (split; [discriminate|]; split; [repeat first [apply NoDup_nil | apply NoDup_cons; [cbn; lia|]]|cbn; lia]).
Qed.

Example C61_adjacency_list_example :
  nbx_oracle 3 (senders 3) /\ destinations_ok 3 ex_dest /\
  (forall q, q < 3 -> length (ex_links q) = length (ex_dest q)) /\
  (forall q row, q < 3 -> In row (ex_links q) ->
     exists s first rest, s < 3 /\ ex_links s = first :: rest /\ length row <= length first) /\
  map (distribute 3 (senders 3) ex_links ex_dest) [0; 1; 2] =
    [Some (([13; 22; 23; 24; 10; 11; 12], [0; 1; 4; 7])%Z, ([0; 2; 0], ([1; 4; 0], [1])%Z));
     Some (([10; 11; 12; 20; 21; 22; 23; 24], [0; 3; 5; 5; 8])%Z, ([0; 2; 2; 2], ([0; 2; 3; 4], [0])%Z));
     Some (([13], [0; 1; 1])%Z, ([0; 2], ([1; 3], [0; 1])%Z))].
Proof.
  split; [intros d r _; reflexivity|]. split; [exact ex_dest_ok|]. split; [intros [|[|[|q]]] Hq; try reflexivity; lia|]. split; [|vm_compute; reflexivity].
  intros q row Hq H. exists 0, [10; 11; 12]%Z, [[13]%Z]. split; [lia|]. split; [reflexivity|]. destruct q as [|[|[|q]]]; [| | |lia]; cbn in H; repeat destruct H as [<-|H]; try destruct H; cbn; lia.
Qed.

(** The rows of the messages have the length of the first nodes: when a later node has more
    links, links are lost and other numbers received in their place. *)
Theorem C61_longer_rows_refuted :
  destinations_ok 2 (fun q => match q with 0 => [[0]; [1]] | _ => [] end) /\
  distribute 2 (senders 2) (fun q => match q with 0 => [[5]; [6; 7; 8]]%Z | _ => [] end)
             (fun q => match q with 0 => [[0]; [1]] | _ => [] end) 1 =
    Some (([6; 3; 1], [0; 3])%Z, ([0], ([1], [])%Z)).
Proof.
  split; [|vm_compute; reflexivity]. intros s di Hs H. destruct s as [|s]; [|destruct H]. cbn in H. repeat destruct H as [<-|H]; try destruct H;
    (split; [discriminate|]; split; [repeat constructor; cbn; lia|cbn; lia]).
Qed.
Print Assumptions C61_longer_rows_refuted.

(** Rows of one length, stored one after the other. *)
Theorem C61_fixed_size :
  forall P nbx ls width w ds,
    nbx_oracle P nbx -> destinations_ok P ds ->
    (forall q, q < P -> width q = w) ->
    (forall q, q < P -> length (ls q) = length (ds q) * w) ->
    forall r, r < P -> exists own gh rows owners,
      owned_nodes P ds r own /\ ghost_nodes P ds r gh /\
      Forall2 (fun n row => slice (ls (fst n)) (snd n * w) (snd n * w + w) = Some row) (own ++ gh) rows /\
      Forall2 (fun n o => exists d, hd_error (nth (snd n) (ds (fst n)) []) = Some d /\ o = Z.of_nat d) gh owners /\
      distribute_fixed P nbx ls width ds r =
        Some (concat rows, (map fst (own ++ gh), (map (node_number (fun s => length (ds s))) (own ++ gh), owners))).
Proof. exact distribute_fixed_ok. Qed.
Print Assumptions C61_fixed_size.

Definition ex_cells (q : nat) : list Z := match q with 0 => [1; 2; 3; 4]%Z | 1 => [] | _ => [5; 6; 7; 8; 9; 10]%Z end.
Example C61_fixed_size_example :
  (forall q, q < 3 -> length (ex_cells q) = length (ex_dest q) * 2) /\
  map (distribute_fixed 3 (senders 3) ex_cells (fun _ => 2) ex_dest) [0; 1; 2] =
    [Some ([3; 4; 9; 10; 1; 2]%Z, ([0; 2; 0], ([1; 4; 0], [1])%Z));
     Some ([1; 2; 5; 6; 7; 8; 9; 10]%Z, ([0; 2; 2; 2], ([0; 2; 3; 4], [0])%Z));
     Some ([3; 4; 7; 8]%Z, ([0; 2], ([1; 3], [0; 1])%Z))].
Proof. split; [intros [|[|[|q]]] Hq; try reflexivity; lia|]. vm_compute. reflexivity. Qed.

(** A node without destination is an error (there is no first destination to read). *)
Theorem C61_no_destination :
  forall P nbx ls ds r, r < P -> In [] (ds r) -> distribute P nbx ls ds r = None /\ forall ls' width, distribute_fixed P nbx ls' width ds r = None.
Proof. exact no_destination. Qed.
Print Assumptions C61_no_destination.

Example C61_no_destination_example :
  distribute 2 (senders 2) (fun _ => [[1%Z]; [2%Z]]) (fun q => if q =? 0 then [[1]; []] else [[0]; [0]]) 0 = None.
Proof. vm_compute. reflexivity. Qed.
