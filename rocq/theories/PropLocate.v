(** Property C48. *)
From Verif Require Import Base Algo Nbx World IndexMap IndexMapSpec ImSharedProofs Locate LocateSpec LocateProofs LocatePairProofs PatternMats.
Open Scope nat_scope.

(** C48: without communication, the dofs of a rank that lie on one of its entities, sorted
    and unique. *)
Theorem C48_local :
  forall P L maps rows ec ce entities, (forall q, q < P -> space_ok L (maps q) (rows q) (ec q) (ce q) (entities q)) ->
  forall r, r < P -> exists l,
    locate_dofs_topological P L maps rows (fun q => Some (ec q)) (fun q => Some (ce q)) entities false r = Some l /\
    StronglySorted lt l /\ forall d, In d l <-> lies_on L (rows r) (ce r) (entities r) d.
Proof. exact located_local. Qed.
Print Assumptions C48_local.

(** C48, what remote=true returns: also the dofs that lie on an entity of a rank with which
    this rank shares a dof that one of the two owns.  Missing for the full statement: a ghost
    dof that lies on an entity of a rank which is not adjacent (refuted below). *)
Theorem C48_remote_partial :
  forall P L maps rows ec ce entities, maps_ok P maps ->
  (forall q, q < P -> space_ok L (maps q) (rows q) (ec q) (ce q) (entities q)) ->
  forall r, r < P -> exists l,
    locate_dofs_topological P L maps rows (fun q => Some (ec q)) (fun q => Some (ce q)) entities true r = Some l /\
    StronglySorted lt l /\
    forall d, In d l <-> lies_on L (rows r) (ce r) (entities r) d \/
      exists q d', q < P /\ adjacent maps r q /\ lies_on L (rows q) (ce q) (entities q) d' /\ same_dof (dof_unit L) (maps q) d' (maps r) d.
Proof. exact located_remote. Qed.
Print Assumptions C48_remote_partial.

(** C48 for the dofs a rank owns: exactly those that lie on an entity on any rank. *)
Theorem C48_owned :
  forall P L maps rows ec ce entities, maps_ok P maps ->
  (forall q, q < P -> space_ok L (maps q) (rows q) (ec q) (ce q) (entities q)) ->
  forall r l d, r < P ->
    locate_dofs_topological P L maps rows (fun q => Some (ec q)) (fun q => Some (ce q)) entities true r = Some l ->
    d / dof_unit L < im_hi (maps r) - im_lo (maps r) ->
    (In d l <-> exists q d', q < P /\ lies_on L (rows q) (ce q) (entities q) d' /\ same_dof (dof_unit L) (maps q) d' (maps r) d).
Proof. exact located_owned. Qed.
Print Assumptions C48_owned.

(** C48: no dof, owned or ghost, is returned that does not lie on an entity of some rank. *)
Theorem C48_sound :
  forall P L maps rows ec ce entities, maps_ok P maps ->
  (forall q, q < P -> space_ok L (maps q) (rows q) (ec q) (ce q) (entities q)) ->
  forall r l d, r < P ->
    locate_dofs_topological P L maps rows (fun q => Some (ec q)) (fun q => Some (ce q)) entities true r = Some l -> In d l ->
    exists q d', q < P /\ lies_on L (rows q) (ce q) (entities q) d' /\ same_dof (dof_unit L) (maps q) d' (maps r) d.
Proof. exact located_sound. Qed.
Print Assumptions C48_sound.

(** C48 for a pair of spaces, e.g. a subspace and its collapsed space: the two arrays have
    the same length and list the corresponding dofs. *)
Theorem C48_pair_local :
  forall P L bs1 mb1 maps0 maps1 rows0 rows1 ec ce entities,
  (forall q, q < P -> pair_ok L bs1 mb1 (maps0 q) (maps1 q) (rows0 q) (rows1 q) (ec q) (ce q) (entities q)) ->
  forall r, r < P -> exists l : list (nat * nat),
    locate_dofs_pair P L bs1 mb1 maps0 maps1 rows0 rows1 (fun q => Some (ec q)) (fun q => Some (ce q)) entities false r = Some (map fst l, map snd l) /\
    StronglySorted lt (map fst l) /\
    forall d0 d1, In (d0, d1) l <-> pair_lies_on L bs1 (rows0 r) (rows1 r) (ce r) (entities r) d0 d1.
Proof. exact pair_local. Qed.
Print Assumptions C48_pair_local.

Theorem C48_pair_remote_partial :
  forall P L bs1 mb1 maps0 maps1 rows0 rows1 ec ce entities, maps_ok P maps0 -> maps_ok P maps1 ->
  (forall q, q < P -> pair_ok L bs1 mb1 (maps0 q) (maps1 q) (rows0 q) (rows1 q) (ec q) (ce q) (entities q)) ->
  pairs_match P L bs1 mb1 maps0 maps1 rows0 rows1 ->
  forall r, r < P -> exists l : list (nat * nat),
    locate_dofs_pair P L bs1 mb1 maps0 maps1 rows0 rows1 (fun q => Some (ec q)) (fun q => Some (ce q)) entities true r = Some (map fst l, map snd l) /\
    StronglySorted lt (map fst l) /\
    forall d0 d1, In (d0, d1) l <-> pair_lies_on L bs1 (rows0 r) (rows1 r) (ce r) (entities r) d0 d1 \/
      exists q e0 e1, q < P /\ adjacent maps0 r q /\ pair_lies_on L bs1 (rows0 q) (rows1 q) (ce q) (entities q) e0 e1 /\
        same_dof (ly_map_bs L) (maps0 q) e0 (maps0 r) d0 /\ same_dof mb1 (maps1 q) e1 (maps1 r) d1.
Proof. exact pair_remote. Qed.
Print Assumptions C48_pair_remote_partial.

Theorem C48_pair_owned :
  forall P L bs1 mb1 maps0 maps1 rows0 rows1 ec ce entities, maps_ok P maps0 -> maps_ok P maps1 ->
  (forall q, q < P -> pair_ok L bs1 mb1 (maps0 q) (maps1 q) (rows0 q) (rows1 q) (ec q) (ce q) (entities q)) ->
  pairs_match P L bs1 mb1 maps0 maps1 rows0 rows1 ->
  forall r l0 l1 d0 d1, r < P ->
    locate_dofs_pair P L bs1 mb1 maps0 maps1 rows0 rows1 (fun q => Some (ec q)) (fun q => Some (ce q)) entities true r = Some (l0, l1) ->
    d0 / ly_map_bs L < im_hi (maps0 r) - im_lo (maps0 r) ->
    (In (d0, d1) (combine l0 l1) <-> exists q e0 e1, q < P /\ pair_lies_on L bs1 (rows0 q) (rows1 q) (ce q) (entities q) e0 e1 /\
      same_dof (ly_map_bs L) (maps0 q) e0 (maps0 r) d0 /\ same_dof mb1 (maps1 q) e1 (maps1 r) d1).
Proof. exact pair_owned. Qed.
Print Assumptions C48_pair_owned.

(** Example: three ranks with one triangle each, around a vertex [v]: rank 0 has (v, b, c)
    and owns its vertices 0, 1, 2; rank 1 has (v, a, b) and owns 3; rank 2 has (v, c, d) and
    owns 4.  The only entity is the edge (v, a) of rank 1.  The first component of a vector
    space with linear elements: block size 1 in an index map with block size 2. *)
Definition ex_map (r : nat) : imap :=
  nth r [mkIM 0 3 5 [] [] [] [1; 2]; mkIM 3 4 5 [0; 1] [0; 0] [0] []; mkIM 4 5 5 [0; 2] [0; 0] [0] []] (mkIM 0 0 0 [] [] [] []).
Definition ex_nodes (r : nat) : list (list nat) := nth r [[[0; 1; 2]]; [[1; 0; 2]]; [[1; 2; 0]]] [].
Definition ex_rows (r : nat) : list (list nat) := map (map (fun v => 2 * v)) (ex_nodes r).
Definition ex_ec (_ : nat) : list (list nat) := [[0]; [0]; [0]].
Definition ex_ce (_ : nat) : list (list nat) := [[0; 1; 2]].
Definition ex_entities (r : nat) : list nat := nth r [[]; [2]; []] [].
Definition ex_lay := mkLay [[1; 2]; [0; 2]; [0; 1]] 1 1 2.

Example ex_map_ok : maps_ok 3 ex_map.
Proof.
  assert (Hnb : nbx_oracle 3 (senders 3)) by (intros d r _; reflexivity).
  destruct (maps_make_ok 3 (senders 3) (fun r => nth r [3; 1; 1] 0) (fun r => nth r [[]; [0; 1]; [0; 2]] []) (fun r => nth r [[]; [0; 0]; [0; 0]] []) Hnb) as (m & Hm & H); [lia| |].
  - intros [|[|[|r]]] Hr; [| | |lia]; (split; [reflexivity|]); (split; [repeat first [apply NoDup_nil | apply NoDup_cons; [cbn; lia|]]|]);
      intros [|[|[|k]]] g o Hg Ho; cbn in Hg, Ho; try discriminate; injection Hg as <-; injection Ho as <-; vm_compute; lia.
  - apply (PatternMats.maps_ok_ext 3 m); [lia| |exact Hm]. intros [|[|[|r]]] Hr; [| | |lia]; destruct (H _ Hr) as (E & _); vm_compute in E; injection E as <-; reflexivity.
Qed.
Lemma ex_ith r c i e : ith_entity (ex_ce r) c i e <-> c = 0 /\ i = e /\ i < 3.
Proof.
  split.
  - intros (es & Ees & Ei). destruct c as [|[|c]]; [|discriminate..]. injection Ees as <-.
    destruct i as [|[|[|[|i]]]]; try discriminate; injection Ei as <-; lia.
  - intros (-> & <- & H). exists [0; 1; 2]. split; [reflexivity|]. destruct i as [|[|[|i]]]; [reflexivity..|lia].
Qed.
Lemma ex_pos i p : closure_pos (ly_closure ex_lay) 1 i p -> p < 3.
Proof.
  intros (cl & index & k & Ecl & Hi & Hk & ->). destruct i as [|[|[|[|i]]]]; try discriminate; injection Ecl as <-; cbn in Hi; lia.
Qed.
Example C48_example_space : forall q, q < 3 -> space_ok ex_lay (ex_map q) (ex_rows q) (ex_ec q) (ex_ce q) (ex_entities q).
Proof.
  intros q Hq. constructor.
  - constructor.
    + intros e He. exists 0, []. destruct q as [|[|[|q]]]; cbn in He; try tauto; [|lia]. destruct He as [<-|[]].
      split; [reflexivity|]. exists 2. apply ex_ith. lia.
    + intros es [<-|[]]. repeat first [apply NoDup_nil | apply NoDup_cons; [cbn; lia|]].
    + intros es [<-|[]]. reflexivity.
  - cbn. lia.
  - intros c i e Hi. apply ex_ith in Hi as (-> & _ & _).
    destruct q as [|[|[|q]]]; [| | |lia]; (eexists; split; [reflexivity|]); intros p Hp; now apply ex_pos in Hp.
  - intros row d Hrow Hd. destruct q as [|[|[|q]]]; [| | |lia]; destruct Hrow as [<-|[]]; cbn in Hd;
      repeat destruct Hd as [<-|Hd]; try tauto; cbn; lia.
  - intros e c c' d _ (i & Hi) Ho. apply ex_ith in Hi as (-> & _ & _).
    destruct Ho as (j & p & row & Hj & K). pose proof (proj1 (ex_ith _ _ _ _) Hj) as (-> & _ & _).
    exists j, p, row. auto.
Qed.
Example C48_example :
  map (locate_dofs_topological 3 ex_lay ex_map ex_rows (fun q => Some (ex_ec q)) (fun q => Some (ex_ce q)) ex_entities true) (seq 0 3)
    = [Some [0]; Some [0; 2]; Some []] /\
  map (locate_dofs_pair 3 ex_lay 1 1 ex_map ex_map ex_rows ex_nodes (fun q => Some (ex_ec q)) (fun q => Some (ex_ce q)) ex_entities true) (seq 0 3)
    = [Some ([0], [0]); Some ([0; 2], [0; 1]); Some ([], [])].
Proof. vm_compute. auto. Qed.

(** Property C48 does not hold in full: rank 2 has the vertex [v] as a ghost.  It lies on the
    edge of rank 1, but ranks 1 and 2 are not adjacent and the dof is not returned. *)
Theorem C48_ghost_refuted :
  exists P L maps rows ec ce entities, maps_ok P maps /\
    (forall q, q < P -> space_ok L (maps q) (rows q) (ec q) (ce q) (entities q)) /\
    exists r l q d d', r < P /\ q < P /\
      locate_dofs_topological P L maps rows (fun q => Some (ec q)) (fun q => Some (ce q)) entities true r = Some l /\
      lies_on L (rows q) (ce q) (entities q) d' /\ same_dof (dof_unit L) (maps q) d' (maps r) d /\ ~ In d l.
Proof.
  exists 3, ex_lay, ex_map, ex_rows, ex_ec, ex_ce, ex_entities. split; [exact ex_map_ok|]. split; [exact C48_example_space|].
  exists 2, [], 1, 2, 2. split; [lia|]. split; [lia|]. split; [vm_compute; reflexivity|]. split; [|split; [|intros []]].
  - exists 2, 0. split; [now left|]. exists 2, 0, [2; 0; 4]. split; [apply ex_ith; lia|]. split; [|split; reflexivity].
    exists [0; 1], 0, 0. split; [reflexivity|]. split; [now left|]. cbn. lia.
  - exists 0. split; [|split; [|reflexivity]]; right; exists 0; split; reflexivity.
Qed.
Print Assumptions C48_ghost_refuted.

(** The hypotheses of the theorems on pairs in the example *)
Lemma ex_matched r c p d0 d1 : r < 3 -> matched 1 1 (ex_rows r) (ex_nodes r) c p d0 d1 -> d0 = 2 * d1 /\ d1 < 3.
Proof.
  intros Hr (row0 & row1 & E0 & E1 & (a & Ea & ->) & (b & Eb & ->)). rewrite Nat.div_1_r, Nat.mod_1_r in *.
  destruct r as [|[|[|r]]]; [| | |lia]; (destruct c as [|[|c]]; [|discriminate..]); injection E0 as <-; injection E1 as <-;
    (destruct p as [|[|[|[|p]]]]; try discriminate; injection Ea as <-; injection Eb as <-; lia).
Qed.
Lemma ex_matched_all r d : r < 3 -> d < 3 -> exists p, matched 1 1 (ex_rows r) (ex_nodes r) 0 p (2 * d) d.
Proof.
  intros Hr Hd. destruct r as [|[|[|r]]]; [| | |lia].
  1: exists d. 2: exists (nth d [1; 0; 2] 0). 3: exists (nth d [2; 0; 1] 0).
  all: do 2 eexists; do 2 (split; [reflexivity|]); split; destruct d as [|[|[|d]]]; try lia; eexists; (split; [reflexivity|]); reflexivity.
Qed.
Lemma ex_size r : r < 3 -> im_hi (ex_map r) - im_lo (ex_map r) + length (im_ghosts (ex_map r)) = 3.
Proof. intro Hr. destruct r as [|[|[|r]]]; [reflexivity..|lia]. Qed.
Lemma ex_at r i g : r < 3 -> at_global (ex_map r) i g -> i < 3.
Proof.
  intros Hr [(A & _)|(k & -> & A)]; pose proof (ex_size r Hr); [lia|]. pose proof (proj1 (nth_error_Some (im_ghosts (ex_map r)) k)) as K.
  rewrite A in K. specialize (K ltac:(discriminate)). lia.
Qed.
Example C48_example_pair : pairs_match 3 ex_lay 1 1 ex_map ex_map ex_rows ex_nodes /\
  forall q, q < 3 -> pair_ok ex_lay 1 1 (ex_map q) (ex_map q) (ex_rows q) (ex_nodes q) (ex_ec q) (ex_ce q) (ex_entities q).
Proof.
  split.
  - intros q r c p d0 d1 Hq Hr M. apply ex_matched in M as (-> & Hd); [|exact Hq]. unfold same_dof. cbn [ly_map_bs ly_bs ex_lay].
    rewrite !(Nat.mul_comm 2 d1), Nat.div_mul, Nat.mod_mul, Nat.div_1_r by lia. split.
    + intros e0 (g & A & B & C). exists 0. destruct (ex_matched_all r (e0 / 2) Hr (ex_at r _ g Hr B)) as (p' & M).
      exists p', (e0 / 2). split; [|].
      * exists g. rewrite Nat.div_1_r, !Nat.mod_1_r. auto.
      * replace e0 with (2 * (e0 / 2)) at 1; [exact M|]. pose proof (Nat.div_mod e0 2 ltac:(lia)). lia.
    + intros e1 (g & A & B & _). rewrite Nat.div_1_r in B. exists (e1 * 2), g. rewrite Nat.div_mul, Nat.mod_mul by lia. auto.
  - intros q Hq. pose proof (C48_example_space q Hq) as H. constructor.
    + exact (sp_entities _ _ _ _ _ _ H).
    + cbn. lia.
    + intros c i e Hi. apply ex_ith in Hi as (-> & _ & _). destruct q as [|[|[|q]]]; [| | |lia]; do 2 eexists;
        do 2 (split; [reflexivity|]); (split; [reflexivity|]); intros p Hp; now apply ex_pos in Hp.
    + intros c p d0 d1 M. apply ex_matched in M as (-> & Hd); [|exact Hq]. rewrite (ex_size q Hq). cbn [ly_map_bs ex_lay].
      rewrite (Nat.mul_comm 2), Nat.div_mul, Nat.div_1_r by lia. auto.
    + intros c p d0 d1 c' p' e0 e1 M M'. apply ex_matched in M as (-> & _); [|exact Hq]. apply ex_matched in M' as (-> & _); [|exact Hq]. lia.
    + intros e c c' d0 d1 _ (i & Hi) (j & p & Hj & K). apply ex_ith in Hi as (-> & _ & _).
      pose proof (proj1 (ex_ith _ _ _ _) Hj) as (-> & _ & _). exists j, p. auto.
Qed.
