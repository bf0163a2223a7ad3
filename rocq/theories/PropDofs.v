(** Degrees of freedom: numbering of one rank, renumbering, agreement of the ranks, the real
    element. *)
From Coq Require Import ZArith.
From Verif Require Import Base BaseProofs Algo Nbx World IndexMap IndexMapSpec PropLocalIndexing CellTypes DofBuilder DofSpec DofReq DofCells DofBasic RenumSpec DofRenum DofRcm DofWorld DofReal DofUse.
Open Scope nat_scope.

(** ** C30: renumbering *)
Theorem C30_renumbering sizes de dofmaps reorder owned : renum_input sizes de dofmaps ->
  owned_size sizes de = Some owned -> (forall f, reorder = Some f -> reorder_wf f owned) ->
  exists o2n, reordering_map sizes de dofmaps reorder = Some (o2n, owned) /\ renum_ok sizes de o2n owned.
Proof. exact (renumbering_ok sizes de dofmaps reorder owned). Qed.
Print Assumptions C30_renumbering.

(** The graph that the reordering function gets *)
Theorem C30_graph sizes de dofmaps o2c owned : renum_input sizes de dofmaps -> length o2c = length de ->
  exists g, dof_graph o2c owned dofmaps = Some g /\ length g = owned /\ graph_wf g /\
    forall i j, (exists row, nth_error g i = Some row /\ In j row) <-> i < owned /\ j < owned /\ share_cell o2c dofmaps i j.
Proof. intros Hin Hl. exact (dof_graph_ok sizes de dofmaps Hin o2c Hl owned). Qed.
Print Assumptions C30_graph.

(** The reordering function of the library, reverse Cuthill-McKee *)
Theorem C30_default_reordering sizes de dofmaps owned srt : renum_input sizes de dofmaps ->
  owned_size sizes de = Some owned -> (forall l, Permutation l (srt l)) -> (Z.of_nat owned < 2147483647)%Z ->
  exists o2n, reordering_map sizes de dofmaps (Some (rcm srt)) = Some (o2n, owned) /\ renum_ok sizes de o2n owned.
Proof. exact (rcm_renumbering sizes de dofmaps owned srt). Qed.
Print Assumptions C30_default_reordering.

(** Two maps with 2 and 1 owned entities, 7 dofs *)
Definition ex_de : list (nat * nat) := [(0, 0); (0, 1); (0, 2); (1, 0); (1, 0); (1, 1); (1, 1)].
Definition ex_rows : list (list (list nat)) := [[[0; 2; 3; 4]; [2; 0; 5; 6]]].
Example C30_example : renum_input [2; 1] ex_de ex_rows /\ owned_size [2; 1] ex_de = Some 4 /\
  reordering_map [2; 1] ex_de ex_rows None = Some ([0; 3; 4; 1; 2; 5; 6], 4) /\
  reordering_map [2; 1] ex_de ex_rows (Some (rcm (fun l => l))) = Some ([3; 0; 4; 2; 1; 5; 6], 4).
Proof.
  split; [split|split; [reflexivity|split; vm_compute; reflexivity]].
  - cbn. intros k x H. repeat destruct H as [[= <- <-]|H]; try contradiction; lia.
  - cbn. intros rows row dof H1 H2 H3. destruct H1 as [<-|[]]. cbn in H2. repeat destruct H2 as [<-|H2]; try contradiction; cbn in H3; lia.
Qed.
(** The result of the reordering function is not checked: with values that do not fit, dofs 0 and
    2 get the same number; a result that is too short is read out of bounds. *)
Theorem C30_unchecked_refuted :
  reordering_map [2] [(0, 0); (0, 1); (0, 2)] [[[0; 1; 2]]] (Some (fun _ => [2; 1])) = Some ([2; 1; 2], 2) /\
  reordering_map [2] [(0, 0); (0, 1); (0, 2)] [[[0; 1; 2]]] (Some (fun _ => [0])) = None.
Proof. split; reflexivity. Qed.
Print Assumptions C30_unchecked_refuted.

(** ** C31: the dofs of one rank *)
Theorem C31_shared_dofs tp lys : tp_ok tp lys ->
  exists rq dofs, required tp lys = Some rq /\ rq_ok tp lys rq /\ cell_dofs tp lys rq = Some dofs /\ length dofs = length lys /\
    (* one row for each cell, as wide as the layout; every position has a dof *)
    (forall i ly rows, nth_error lys i = Some ly -> nth_error dofs i = Some rows ->
       length rows = map_size (tp_map tp (tp_dim tp) i) /\ forall row, In row rows -> length row = ly_num ly) /\
    (forall i c p d t x j, slot tp lys i c p d t x j -> c < map_size (tp_map tp (tp_dim tp) i) -> exists v, dof_at dofs i c p v) /\
    (forall i c p ly, nth_error lys i = Some ly -> c < map_size (tp_map tp (tp_dim tp) i) -> p < ly_num ly -> exists d t x j, slot tp lys i c p d t x j) /\
    (* the same dof iff the same entity and position on it *)
    (forall i c p d t x j v i' c' p' d' t' x' j' v', slot tp lys i c p d t x j -> c < map_size (tp_map tp (tp_dim tp) i) -> dof_at dofs i c p v ->
       slot tp lys i' c' p' d' t' x' j' -> c' < map_size (tp_map tp (tp_dim tp) i') -> dof_at dofs i' c' p' v' ->
       (v = v' <-> d = d' /\ t = t' /\ x = x' /\ j = j')) /\
    (* number of dofs, entity and global number of each *)
    length (dof_entities tp rq) = lsum (map (fun r => snd r * map_size (tp_map tp (fst (fst r)) (snd (fst r)))) rq) /\
    (forall i c p d t x j v, slot tp lys i c p d t x j -> c < map_size (tp_map tp (tp_dim tp) i) -> dof_at dofs i c p v ->
       exists k et n, nth_error rq k = Some ((d, et), n) /\ nth_error (tp_types tp d) et = Some t /\ j < n /\ nth_error (dof_entities tp rq) v = Some (k, x) /\
         forall g, local_to_global (tp_map tp d et) x = Some g ->
           nth_error (old_globals tp rq) v = Some (lsum (firstn k (map (fun r => snd r * im_size_global (tp_map tp (fst (fst r)) (snd (fst r)))) rq)) + n * g + j)).
Proof. exact (shared_dofs_ok tp lys). Qed.
Print Assumptions C31_shared_dofs.

(** ** Two triangles 012 and 123, one on each rank, both ranks have a ghost cell; cubic elements *)
Definition ex_cells (r : nat) : imap := match r with 0 => mkIM 0 1 2 [1] [1] [1] [1] | _ => mkIM 1 2 2 [0] [0] [0] [0] end.
Definition ex_edges (r : nat) : imap := match r with 0 => mkIM 0 3 5 [3; 4] [1; 1] [1] [1] | _ => mkIM 3 5 5 [2; 1; 0] [0; 0; 0] [0] [0] end.
Definition ex_topo (r : nat) : topo :=
  {| tp_dim := 2;
     tp_types := fun d => match d with 0 => [Point] | 1 => [Interval] | 2 => [Triangle] | _ => [] end;
     tp_map := fun d et => match d with 0 => ex_maps r | 1 => ex_edges r | _ => ex_cells r end;
     tp_conn := fun i d et => match d, r with
       | 0, 0 => Some [[0; 1; 2]; [1; 2; 3]] | 1, 0 => Some [[2; 1; 0]; [4; 3; 2]]
       | 0, _ => Some [[3; 0; 1]; [2; 3; 0]] | 1, _ => Some [[1; 0; 2]; [2; 3; 4]]
       | _, _ => None end |}.
Definition ex_layout : layout := {| ly_dofs := [[[0]; [1]; [2]]; [[3; 4]; [5; 6]; [7; 8]]; [[9]]]; ly_num := 10 |}.

Lemma ex_on r i d e t ds : on_entity (ex_topo r) [ex_layout] i d e t ds ->
  i = 0 /\ (d = 0 /\ e < 3 /\ t = Point /\ ds = [e] \/ d = 1 /\ e < 3 /\ t = Interval /\ length ds = 2 \/ d = 2 /\ e = 0 /\ t = Triangle /\ ds = [9]).
Proof.
  intros (ct & ly & eds & H1 & H2 & H3 & H4 & ->). destruct i as [|i]; [|destruct i; discriminate]. split; [reflexivity|]. injection H1 as <-. injection H2 as <-.
  destruct d as [|[|[|d]]]; [| | |destruct d; discriminate]; injection H3 as <-.
  - left. destruct e as [|[|[|e]]]; [| | |destruct e; discriminate]; injection H4 as <-; (split; [reflexivity|split; [lia|split; reflexivity]]).
  - right; left. destruct e as [|[|[|e]]]; [| | |destruct e; discriminate]; injection H4 as <-; (split; [reflexivity|split; [lia|split; reflexivity]]).
  - right; right. destruct e as [|e]; [|destruct e; discriminate]; injection H4 as <-; (split; [reflexivity|split; [lia|split; reflexivity]]).
Qed.
Example ex_topo_ok r : r < 2 -> tp_ok (ex_topo r) [ex_layout].
Proof.
  intros Hr. constructor.
  - intros [|[|[|d]]] H; cbn; repeat constructor; auto.
  - intros ct [<-|[]]. reflexivity.
  - reflexivity.
  - intros [|i] ct ly H1 H2; [|destruct i; discriminate]. injection H1 as <-. injection H2 as <-. split; [reflexivity|]. split; [|apply Permutation_refl].
    intros [|[|[|d]]] eds H; try (destruct d; discriminate); injection H as <-; reflexivity.
  - intros i d e t ds i' e' ds' H H'. apply ex_on in H as (_ & H). apply ex_on in H' as (_ & H').
    destruct H as [(-> & _ & _ & ->)|[(-> & _ & _ & L)|(-> & _ & _ & ->)]]; destruct H' as [(? & _ & _ & ->)|[(? & _ & _ & L')|(? & _ & _ & ->)]]; try discriminate; try reflexivity. now rewrite L, L'.
  - intros i d e t ds H _. apply ex_on in H as (_ & [(-> & _ & -> & _)|[(-> & _ & -> & _)|(-> & _ & -> & _)]]); now left.
  - intros i d et e t ds Hd H _ _. destruct d as [|[|d]]; [| |cbn in Hd; lia]; destruct r; discriminate.
  - intros [|i] ct d et t links Hd H1 H2 H3; [|destruct i; discriminate]. injection H1 as <-. destruct d as [|[|d]]; [| |cbn in Hd; lia]; (destruct et as [|et]; [|destruct et; discriminate]); injection H2 as <-.
    + destruct r as [|[|r]]; [| |lia]; injection H3 as <-; (split; [reflexivity|]); intros row n Hrow [= <-]; repeat destruct Hrow as [<-|Hrow]; try contradiction; (split; [reflexivity|]); cbn; lia.
    + destruct r as [|[|r]]; [| |lia]; injection H3 as <-; (split; [reflexivity|]); intros row n Hrow [= <-]; repeat destruct Hrow as [<-|Hrow]; try contradiction; (split; [reflexivity|]); cbn; lia.
Qed.
(** Rank 0: vertices have dofs 0-3, edges 4-13, cells 14 and 15. *)
Example C31_example : tp_ok (ex_topo 0) [ex_layout] /\
  (rq <- required (ex_topo 0) [ex_layout] ;; cell_dofs (ex_topo 0) [ex_layout] rq) = Some [[[0; 1; 2; 8; 9; 6; 7; 4; 5; 14]; [1; 2; 3; 12; 13; 10; 11; 8; 9; 15]]].
Proof. split; [apply ex_topo_ok; lia|]. vm_compute. reflexivity. Qed.

(** A triangle and a quadrilateral whose connectivity to edges has not been computed: only the
    first cell type is checked, the dofs on the edges of the quadrilateral are left 0. *)
Definition bad_topo : topo :=
  {| tp_dim := 2; tp_types := fun d => match d with 0 => [Point] | 1 => [Interval] | _ => [Triangle; Quadrilateral] end;
     tp_map := fun d et => match d with 0 => mkIM 0 5 5 [] [] [] [] | 1 => mkIM 0 6 6 [] [] [] [] | _ => mkIM 0 1 1 [] [] [] [] end;
     tp_conn := fun i d et => match i, d with 0, 0 => Some [[0; 1; 2]] | 0, 1 => Some [[0; 1; 2]] | _, 0 => Some [[1; 2; 3; 4]] | _, _ => None end |}.
Definition bad_layouts : list layout :=
  [{| ly_dofs := [[[]; []; []]; [[0]; [1]; [2]]; [[]]]; ly_num := 3 |}; {| ly_dofs := [[[]; []; []; []]; [[0]; [1]; [2]; [3]]; [[]]]; ly_num := 4 |}].
Theorem C31_missing_connectivity_refuted :
  (rq <- required bad_topo bad_layouts ;; cell_dofs bad_topo bad_layouts rq) = Some [[[0; 1; 2]]; [[0; 0; 0; 0]]].
Proof. vm_compute. reflexivity. Qed.
Print Assumptions C31_missing_connectivity_refuted.

(** ** C32: all ranks *)
Theorem C32_global_dofs P nbx tps lys reorder order : nbx_oracle P nbx -> 0 < P -> dof_world P tps lys ->
  (forall rq q, required (tps 0) lys = Some rq -> q < P ->
     Permutation (order q) (seq 0 (length rq)) /\
     forall f, reorder q = Some f -> reorder_wf f (lsum (map (fun r => snd r * size_local (req_map (tps q) r)) rq))) ->
  exists dm dofs num, (forall q, q < P -> build_dofmap_data P nbx tps lys reorder order q = Some (dm q, dofs q)) /\ dofmap_ok P tps lys dm dofs num.
Proof. exact (global_dofs_ok P nbx tps lys reorder order). Qed.
Print Assumptions C32_global_dofs.

Example C32_example : nbx_oracle 2 (senders 2) /\ dof_world 2 ex_topo [ex_layout] /\
  option_map (@length _) (required (ex_topo 0) [ex_layout]) = Some 3 /\ Permutation [2; 0; 1] (seq 0 3) /\
  map (fun q => option_map (fun x => (im_lo (fst x), im_hi (fst x), im_ghosts (fst x), im_owners (fst x), snd x))
         (build_dofmap_data 2 (senders 2) ex_topo [ex_layout] (fun _ => None) (fun _ => [2; 0; 1]) q)) [0; 1] =
    [Some (0, 9, [9; 10; 11; 12; 13; 14; 15], [1; 1; 1; 1; 1; 1; 1], [[[0; 1; 9; 2; 3; 4; 5; 6; 7; 8]; [1; 9; 10; 11; 12; 13; 14; 2; 3; 15]]]);
     Some (9, 16, [1; 2; 3; 0; 4; 5; 6; 7; 8], [0; 0; 0; 0; 0; 0; 0; 0; 0], [[[7; 0; 1; 2; 3; 4; 5; 8; 9; 6]; [10; 7; 0; 8; 9; 11; 12; 13; 14; 15]]])].
Proof.
  split; [intros d r _; reflexivity|]. split; [constructor|].
  - intros r Hr. now apply ex_topo_ok.
  - reflexivity.
  - reflexivity.
  - intros d et n (Hn & i & e & t & ds & Hon & Ht & Hl). apply ex_on in Hon as (_ & [(-> & _)|[(-> & _)|(-> & _)]]).
    + exact ex_maps_ok.
    + constructor.
      * reflexivity.
      * intros [|r] H; [reflexivity|lia].
      * intros [|[|r]] H; cbn; lia.
      * intros [|[|r]] H; reflexivity.
      * intros [|[|r]] H; [| |lia]; cbn; repeat first [apply NoDup_nil | apply NoDup_cons; [cbn; lia|]].
      * intros [|[|r]] [|[|[|k]]] g o H Hg Ho; cbn in Hg, Ho; try (destruct k; discriminate); try discriminate; try lia; injection Hg as <-; injection Ho as <-; unfold owns; cbn; lia.
      * intros [|[|r]] H; [| |lia]; cbn; (split; [repeat constructor|]; intros s; tauto).
      * intros [|[|r]] H; [| |lia]; cbn; (split; [repeat constructor|]; intros s; split; [intros [<-|[]]; cbn; lia|intros [Hs Hin]; destruct s as [|[|s]]; cbn in Hin; lia]).
    + constructor.
      * reflexivity.
      * intros [|r] H; [reflexivity|lia].
      * intros [|[|r]] H; cbn; lia.
      * intros [|[|r]] H; reflexivity.
      * intros [|[|r]] H; [| |lia]; cbn; repeat first [apply NoDup_nil | apply NoDup_cons; [cbn; lia|]].
      * intros [|[|r]] [|k] g o H Hg Ho; cbn in Hg, Ho; try (destruct k; discriminate); try lia; injection Hg as <-; injection Ho as <-; unfold owns; cbn; lia.
      * intros [|[|r]] H; [| |lia]; cbn; (split; [repeat constructor|]; intros s; tauto).
      * intros [|[|r]] H; [| |lia]; cbn; (split; [repeat constructor|]; intros s; split; [intros [<-|[]]; cbn; lia|intros [Hs Hin]; destruct s as [|[|s]]; cbn in Hin; lia]).
  - intros d et n r (Hn & i & e & t & ds & Hon & Ht & Hl) Hr. apply ex_on in Hon as (_ & [(-> & _)|[(-> & _)|(-> & _)]]); destruct r as [|[|r]]; try reflexivity; lia.
  - split; [reflexivity|]. split; [apply (perm_trans (l' := [0; 2; 1])); repeat constructor|]. vm_compute. reflexivity.
Qed.

(** ** C33: the real element *)
Theorem C33_real_element P nbx cells : nbx_oracle P nbx -> 0 < P -> maps_ok P cells -> (exists q, q < P /\ 0 < size_local (cells q)) ->
  exists o dm, o < P /\ maps_ok P dm /\
    forall q, q < P -> build_real_element_dofmap P nbx cells q = Some (dm q, repeat [0] (map_size (cells q))) /\
      size_local (dm q) = (if q =? o then 1 else 0) /\ im_ghosts (dm q) = (if q =? o then [] else [0]) /\ im_owners (dm q) = (if q =? o then [] else [o]) /\
      im_size_global (dm q) = 1 /\ local_to_global (dm q) 0 = Some 0.
Proof. exact (real_element_ok P nbx cells). Qed.
Print Assumptions C33_real_element.

(** Rank 0 has no cells, rank 1 owns the dof. *)
Definition real_cells (r : nat) : imap := match r with 0 => mkIM 0 0 3 [] [] [] [] | 1 => mkIM 0 2 3 [2] [2] [2] [2] | _ => mkIM 2 3 3 [0; 1] [1; 1] [1] [1] end.
Example C33_example : map (fun q => option_map (fun x => (im_lo (fst x), im_hi (fst x), im_ghosts (fst x), im_owners (fst x), snd x)) (build_real_element_dofmap 3 (senders 3) real_cells q)) [0; 1; 2] =
  [Some (0, 0, [0], [1], []); Some (0, 1, [], [], [[0]; [0]; [0]]); Some (1, 1, [0], [1], [[0]; [0]; [0]])].
Proof. vm_compute. reflexivity. Qed.
Example C33_example_cells : maps_ok 3 real_cells.
Proof.
  constructor.
  - reflexivity.
  - intros [|[|r]] H; [reflexivity|reflexivity|lia].
  - intros [|[|[|r]]] H; cbn; lia.
  - intros [|[|[|r]]] H; reflexivity.
  - intros [|[|[|r]]] H; [| | |lia]; cbn; repeat first [apply NoDup_nil | apply NoDup_cons; [cbn; lia|]].
  - intros [|[|[|r]]] [|[|k]] g o H Hg Ho; cbn in Hg, Ho; try (destruct k; discriminate); try discriminate; try lia; injection Hg as <-; injection Ho as <-; unfold owns; cbn; lia.
  - intros [|[|[|r]]] H; [| | |lia]; cbn; (split; [repeat constructor|]; intros s; tauto).
  - intros [|[|[|r]]] H; [| | |lia]; cbn; (split; [repeat constructor|]; intros s; split; [intros Hs; try contradiction; destruct Hs as [<-|[]]; cbn; lia|intros [Hs Hin]; destruct s as [|[|[|s]]]; cbn in Hin; lia]).
Qed.
(** In a mesh without cells no rank owns the dof and all are given rank 0 as its owner, even
    rank 0 itself. *)
Theorem C33_no_cells_refuted :
  map (real_num (fun _ => mkIM 0 0 0 [] [] [] [])) [0; 1] = [0; 0] /\
  map (real_ghosts (fun _ => mkIM 0 0 0 [] [] [] [])) [0; 1] = [[0]; [0]] /\
  map (real_owners 2 (fun _ => mkIM 0 0 0 [] [] [] [])) [0; 1] = [[0]; [0]].
Proof. vm_compute. auto. Qed.
Print Assumptions C33_no_cells_refuted.
