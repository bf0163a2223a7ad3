(** C63: cells and coordinates of a mesh. *)
From Verif Require Import Base Algo Nbx World PostOffice Distribute DistributeSpec GhostIdx MeshCreate MeshCreateSpec MeshCreateProofs.
Open Scope nat_scope.

(** Cells of type t: a rank holds the cells that have it as destination, each once: the owned
    ones, where the cell number j in the order of arrival is at place remap[j], and then the
    ghosts; every cell keeps its nodes, in order, and its original number. [ds t q] are the
    destinations of the cells of type t on rank q; the partitioner gives those of all types. *)
Theorem C63_cells :
  forall P nbx types width cells dest remap ds,
    nbx_oracle P nbx ->
    (forall t, t < types -> 0 < width t) ->
    (forall t q, t < types -> q < P -> length (cells t q) = length (ds t q) * width t) ->
    (forall q, q < P -> dest q = concat (map (fun t => ds t q) (seq 0 types))) ->
    (forall t, t < types -> destinations_ok P (ds t)) ->
    (forall t r own, t < types -> r < P -> owned_nodes P (ds t) r own ->
       Permutation (remap t r) (seq 0 (length own))) ->
    forall t r, t < types -> r < P -> exists own own' gh rows owners,
      owned_nodes P (ds t) r own /\ ghost_nodes P (ds t) r gh /\ reordered (remap t r) own own' /\
      Forall2 (fun n row => slice (cells t (fst n)) (snd n * width t) (snd n * width t + width t) = Some row)
              (own' ++ gh) rows /\
      Forall2 (fun n o => exists d, hd_error (nth (snd n) (ds t (fst n)) []) = Some d /\ o = Z.of_nat d) gh owners /\
      mesh_cells P nbx width cells dest remap t r =
        Some (concat rows, (map (node_number (fun s => length (ds t s))) (own' ++ gh), owners)).
Proof. exact mesh_cells_statement. Qed.
Print Assumptions C63_cells.

(** Two ranks, triangles and quadrilaterals. *)
Definition ex_width (t : nat) : nat := match t with 0 => 3 | _ => 4 end.
Definition ex_cells (t q : nat) : list Z :=
  match t, q with 0, 0 => [0; 1; 2; 0; 2; 6]%Z | 0, 1 => [3; 5; 4]%Z | 1, 0 => [1; 3; 4; 2]%Z | _, _ => [] end.
Definition ex_ds (t q : nat) : list (list nat) :=
  match t, q with 0, 0 => [[1; 0]; [0]] | 0, 1 => [[0; 1]] | 1, 0 => [[1]] | _, _ => [] end.
Definition ex_dest (q : nat) : list (list nat) := match q with 0 => [[1; 0]; [0]; [1]] | 1 => [[0; 1]] | _ => [] end.
Definition ex_remap (t r : nat) : list nat := match t, r with 0, 0 => [1; 0] | 0, 1 => [0] | 1, 1 => [0] | _, _ => [] end.
Lemma ex_owned t r own : t < 2 -> r < 2 -> owned_nodes 2 (ex_ds t) r own ->
  own = match t, r with 0, 0 => [(0, 1); (1, 0)] | 0, 1 => [(0, 0)] | 1, 1 => [(0, 0)] | _, _ => [] end.
Proof.
  intros Ht Hr (H1 & H2). apply (sorted_nodes_eq own); [exact H1| |].
  - destruct t as [|[|t]]; [| |lia]; (destruct r as [|[|r]]; [| |lia]); repeat constructor; unfold node_order; cbn; lia.
  - intros (s, i). rewrite H2. destruct t as [|[|t]]; [| |lia]; (destruct r as [|[|r]]; [| |lia]); cbn; (split; [
      intros (Hs & di & Hd & Hh); destruct s as [|[|s]]; [| |lia]; destruct i as [|[|[|i]]]; cbn in Hd; try discriminate; injection Hd as <-; cbn in Hh; try discriminate; auto
    | intro H; repeat destruct H as [H|H]; try contradiction; injection H as <- <-; (split; [lia|]); eexists; (split; [reflexivity|reflexivity]) ]).
Qed.
Example C63_cells_example :
  (forall t q, t < 2 -> q < 2 -> length (ex_cells t q) = length (ex_ds t q) * ex_width t) /\
  (forall q, q < 2 -> ex_dest q = concat (map (fun t => ex_ds t q) (seq 0 2))) /\
  (forall t, t < 2 -> destinations_ok 2 (ex_ds t)) /\
  (forall t r own, t < 2 -> r < 2 -> owned_nodes 2 (ex_ds t) r own -> Permutation (ex_remap t r) (seq 0 (length own))) /\
  map (fun tr => mesh_cells 2 (senders 2) ex_width ex_cells ex_dest ex_remap (fst tr) (snd tr)) [(0, 0); (0, 1); (1, 0); (1, 1)] =
    [Some ([3; 5; 4; 0; 2; 6; 0; 1; 2], ([2; 1; 0], [1])); Some ([0; 1; 2; 3; 5; 4], ([0; 2], [0]));
     Some ([], ([], [])); Some ([1; 3; 4; 2], ([0], []))]%Z.
Proof.
  split; [intros [|[|t]] [|[|q]] H1 H2; cbn; lia|]. split; [intros [|[|q]] H; [reflexivity..|lia]|].
  split; [intros [|[|t]] Ht [|[|s]] di Hs H; try lia; cbn in H; repeat destruct H as [<-|H]; try contradiction; (split; [discriminate|]); (split; [repeat first [apply NoDup_nil | apply NoDup_cons; [cbn; lia|]]|cbn; lia])|].
  split; [|vm_compute; reflexivity].
  intros t r own Ht Hr H. rewrite (ex_owned t r own Ht Hr H). destruct t as [|[|t]]; [| |lia]; (destruct r as [|[|r]]; [| |lia]); cbn; try apply Permutation_refl. apply perm_swap.
Qed.

(** Coordinates: x q are the rows of rank q, of those in commg; node g is row g of all of
    them. Whatever cell a rank holds: the geometry dof at position j of the cell has the
    coordinates of the node that was given at position j of the cell with the same original
    number, filled up with zeros to three components, and its global input index. *)
Theorem C63_geometry :
  forall (T : Type) (zero : T) P nbx nbx0 nbx1 types width cells dest remap ds commg (x : nat -> list (list T)) dim dofmaps,
    nbx_oracle P nbx -> nbx_oracle P nbx0 -> nbx_oracle P nbx1 ->
    (forall t, t < types -> 0 < width t) ->
    (forall t q, t < types -> q < P -> length (cells t q) = length (ds t q) * width t) ->
    (forall q, q < P -> dest q = concat (map (fun t => ds t q) (seq 0 types))) ->
    (forall t, t < types -> destinations_ok P (ds t)) ->
    (forall t r own, t < types -> r < P -> owned_nodes P (ds t) r own ->
       Permutation (remap t r) (seq 0 (length own))) ->
    NoDup commg -> (forall q, In q commg -> q < P) -> (forall q, q < P -> ~ In q commg -> x q = []) ->
    0 < dim <= 3 -> (forall q row, In q commg -> In row (x q) -> length row = dim) ->
    (forall t q g, t < types -> q < P -> In g (cells t q) ->
       (0 <= g < Z.of_nat (length (concat (map x commg))))%Z) ->
    forall r, r < P ->
    (forall cs, omap (fun t => mesh_cells P nbx width cells dest remap t r) (seq 0 types) = Some cs ->
       numbers_cells (dofmaps r) (map fst cs)) ->
    exists xg igi,
      mesh_geometry P nbx nbx0 nbx1 types width cells dest remap zero commg x dim dofmaps r = Some (xg, igi) /\
      forall t cells1 orig owners dofmap c s i j g k,
        t < types -> mesh_cells P nbx width cells dest remap t r = Some (cells1, (orig, owners)) ->
        nth_error (dofmaps r) t = Some dofmap ->
        s < P -> i < length (ds t s) -> j < width t ->
        nth_error orig c = Some (node_number (fun s => length (ds t s)) (s, i)) ->
        nth_error (cells t s) (i * width t + j) = Some g -> nth_error dofmap (c * width t + j) = Some k ->
        nth_error igi k = Some g /\
        exists row, nth_error (concat (map x commg)) (Z.to_nat g) = Some row /\
          slice xg (3 * k) (3 * k + 3) = Some (row ++ repeat zero (3 - dim)).
Proof. exact @mesh_geometry_statement. Qed.
Print Assumptions C63_geometry.

Definition ex_x (q : nat) : list (list nat) :=
  match q with 0 => [[10; 11]; [20; 21]; [30; 31]] | 1 => [[40; 41]; [50; 51]; [60; 61]; [70; 71]] | _ => [] end.
(** Dof of a node: 6 - node on rank 0, 5 - node on rank 1. *)
Definition ex_dof (r : nat) (g : Z) : nat := match r with 0 => 6 | _ => 5 end - Z.to_nat g.
Definition ex_held (r : nat) : list (list Z) :=
  match r with 0 => [[3; 5; 4; 0; 2; 6; 0; 1; 2]; []]%Z | _ => [[0; 1; 2; 3; 5; 4]; [1; 3; 4; 2]]%Z end.
Definition ex_dofmaps (r : nat) : list (list nat) := map (map (ex_dof r)) (ex_held r).
Lemma ex_numbers r : r < 2 -> numbers_cells (ex_dofmaps r) (ex_held r).
Proof.
  intro Hr. assert (Hg : forall g, In g (concat (ex_held r)) -> g = Z.of_nat (match r with 0 => 6 | _ => 5 end - ex_dof r g)).
  { intros g H. destruct r as [|[|r]]; [| |lia]; cbn in H; repeat destruct H as [<-|H]; try destruct H; reflexivity. }
  split.
  - unfold ex_dofmaps. generalize (ex_held r). intro l. induction l as [|a l IH]; constructor; [apply map_length|exact IH].
  - unfold ex_dofmaps. split; [|split].
    + rewrite <- concat_map. apply map_length.
    + intros a b k l g h. rewrite <- concat_map, !nth_error_map. intros Ha Hb Ea Eb. rewrite Ea in Ha. rewrite Eb in Hb. cbn in Ha, Hb. injection Ha as <-. injection Hb as <-.
      split; [|now intros ->]. intro E. rewrite (Hg g (nth_error_In _ _ Ea)), (Hg h (nth_error_In _ _ Eb)). now rewrite E.
    + intros k l. rewrite <- concat_map. destruct r as [|[|r]]; [| |lia];
        match goal with |- context [In _ ?m] => let v := eval vm_compute in m in change m with v end; cbn [In]; lia.
Qed.
Example C63_geometry_example :
  (forall q row, In q [0; 1] -> In row (ex_x q) -> length row = 2) /\
  (forall t q g, t < 2 -> q < 2 -> In g (ex_cells t q) -> (0 <= g < Z.of_nat (length (concat (map ex_x (seq 0 2)))))%Z) /\
  (forall r cs, r < 2 -> omap (fun t => mesh_cells 2 (senders 2) ex_width ex_cells ex_dest ex_remap t r) (seq 0 2) = Some cs ->
     numbers_cells (ex_dofmaps r) (map fst cs)) /\
  map (mesh_geometry 2 (senders 2) (senders 2) (senders 2) 2 ex_width ex_cells ex_dest ex_remap 0 [0; 1] ex_x 2 ex_dofmaps) [0; 1] =
    [Some ([70; 71; 0; 60; 61; 0; 50; 51; 0; 40; 41; 0; 30; 31; 0; 20; 21; 0; 10; 11; 0], [6; 5; 4; 3; 2; 1; 0]%Z);
     Some ([60; 61; 0; 50; 51; 0; 40; 41; 0; 30; 31; 0; 20; 21; 0; 10; 11; 0], [5; 4; 3; 2; 1; 0]%Z)].
Proof.
  split; [intros q row Hq H; cbn in Hq; destruct Hq as [<-|[<-|[]]]; cbn in H; repeat destruct H as [<-|H]; try destruct H; reflexivity|].
  split; [intros [|[|t]] [|[|q]] g Ht Hq H; try lia; cbn in H; cbn; lia|]. split; [|vm_compute; reflexivity].
  intros r cs Hr E. assert (Em : map fst cs = ex_held r); [|rewrite Em; now apply ex_numbers].
  destruct r as [|[|r]]; [| |lia]; vm_compute in E; injection E as <-; reflexivity.
Qed.
