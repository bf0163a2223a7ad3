(** Properties C55 and C56: the bookkeeping of mesh refinement. *)
From Verif Require Import Base Algo Nbx World IndexMap IndexMapSpec PropIndexMap RefUtils RefUtilsProofs.
Open Scope nat_scope.

(** C56: after [adjust_indices] with [n r] new indices on rank [r], the block of rank [r]
    starts at the sum of the sizes and new indices of the ranks before it; owned indices
    are numbered consecutively from there, ghosts have the number their owner gives them,
    and two indices get the same number exactly when they had the same number. *)
Theorem C56_adjust_indices :
  forall P maps n, maps_ok P maps ->
  let lo := fun r => lsum (map (fun q => size_local (maps q) + n q) (seq 0 r)) in
  exists out, (forall r, r < P -> adjust_indices P maps n r = Some (out r)) /\
    (forall r, r < P -> length (out r) = size_local (maps r) + num_ghosts (maps r)) /\
    (forall r i, r < P -> i < size_local (maps r) -> nth_error (out r) i = Some (lo r + i)) /\
    (forall r i o j g, r < P -> o < P -> local_to_global (maps r) i = Some g -> owns (maps o) g -> j = g - im_lo (maps o) ->
       nth_error (out r) i = nth_error (out o) j) /\
    (forall r s i j, r < P -> s < P -> i < length (out r) -> j < length (out s) ->
       nth_error (out r) i = nth_error (out s) j <-> local_to_global (maps r) i = local_to_global (maps s) j).
Proof. exact adjust_statement. Qed.
Print Assumptions C56_adjust_indices.

(** C56: the [n r] numbers after the block of rank [r] are free: no index on any rank has
    one of them, and no two ranks have the same ones. *)
Theorem C56_room :
  forall P maps n, maps_ok P maps ->
  let new := fun r k => lsum (map (fun q => size_local (maps q) + n q) (seq 0 r)) + size_local (maps r) + k in
  (forall r k s out i, r < P -> k < n r -> s < P -> adjust_indices P maps n s = Some out -> nth_error out i <> Some (new r k)) /\
  (forall r s k l, r < P -> s < P -> k < n r -> l < n s -> new r k = new s l -> r = s /\ k = l).
Proof.
  intros P maps n Hok new. destruct (adjust_statement P maps n Hok) as (out & E & Hlen & Hown & Hgh & _). cbv beta zeta in *.
  assert (Hlo : forall a b, a < b -> lsum (map (fun q => size_local (maps q) + n q) (seq 0 a)) + size_local (maps a) + n a <= lsum (map (fun q => size_local (maps q) + n q) (seq 0 b))).
  { intros a b Hab. replace b with (a + S (b - a - 1)) by lia. rewrite seq_app, map_app, BaseProofs.lsum_app. cbn [seq map plus]. rewrite BaseProofs.lsum_cons. lia. }
  split.
  - intros r k s o i Hr Hk Hs Eo Hi. rewrite (E s Hs) in Eo. injection Eo as <-.
    pose proof (BaseProofs.nth_error_bound _ _ _ Hi) as Hb. rewrite Hlen in Hb by exact Hs. apply (IndexMapProofs.l2g_some (maps s) (mo_range _ _ Hok s Hs)) in Hb as (g & Hg).
    assert (Ho : exists o, o < P /\ owns (maps o) g).
    { unfold local_to_global in Hg. destruct (Nat.ltb_spec i (size_local (maps s))).
      - exists s. injection Hg as <-. unfold owns, size_local in *. split; lia.
      - apply nth_error_In in Hg. destruct (ImSharedProofs.ghost_owner P maps Hok s g Hs Hg) as (o & j & Ho & _ & Hw & _). exists o. auto. }
    destruct Ho as (o & Ho & Hw). rewrite (Hgh s i o _ g Hs Ho Hg Hw eq_refl) in Hi. rewrite Hown in Hi; [|exact Ho|unfold owns, size_local in *; lia]. injection Hi as Hi. unfold new in Hi.
    assert (g - im_lo (maps o) < size_local (maps o)) by (unfold owns, size_local in *; lia).
    destruct (Nat.lt_trichotomy o r) as [L|[->|L]]; [pose proof (Hlo _ _ L); lia|lia|pose proof (Hlo _ _ L); lia].
  - intros r s k l Hr Hs Hk Hl Heq. unfold new in Heq. destruct (Nat.lt_trichotomy r s) as [L|[->|L]]; [pose proof (Hlo _ _ L); lia|split; [reflexivity|lia]|pose proof (Hlo _ _ L); lia].
Qed.
Print Assumptions C56_room.

Example ex_adjust : map (adjust_indices 3 ex_maps (fun r => match r with 0 => 2 | 1 => 1 | _ => 3 end)) (seq 0 3)
  = [Some [0; 1; 2; 7]; Some [7; 0; 2]; Some [6; 7; 2]].
Proof. vm_compute. reflexivity. Qed.

(** C55, cells: [original] gives the number that a cell of the refined mesh had when it was
    created, [cell] the parent of the created cells.  A cell is tagged with [v] exactly when
    its parent is. *)
Theorem C55_transfer_cells :
  forall num_cells original offset cell indices values,
  Permutation original (seq offset (length cell)) -> Forall (fun p => p < num_cells) cell -> (Z.of_nat (length cell) <= 2 ^ 31)%Z ->
  length indices = length values -> NoDup indices -> Forall (fun p => p < num_cells) indices ->
  exists is vs, transfer_cell_meshtag true false num_cells original offset cell indices values = Some (is, vs) /\ length is = length vs /\ StronglySorted lt is /\
    forall k v, In (k, v) (combine is vs) <->
      exists c p, nth_error original k = Some (offset + c) /\ nth_error cell c = Some p /\ In (p, v) (combine indices values).
Proof. exact transfer_cell_ok. Qed.
Print Assumptions C55_transfer_cells.

(** C55, facets: [facet_child ... p k] says that the tables record that facet [k] of the
    refined mesh lies on facet [p].  No facet lies on two facets of the old mesh. *)
Theorem C55_transfer_facets :
  forall tdim num_facets cf cf1 original offset cell facet indices values m,
  Permutation original (seq offset (length cell)) ->
  Forall (fun pc => exists fs, nth_error cf pc = Some fs /\ length fs = S tdim /\ Forall (fun f => f < num_facets) fs) cell ->
  (forall lc, lc < length cell -> exists rf, nth_error cf1 lc = Some rf /\ length rf = S tdim /\ Forall (fun k => k < m) rf) -> (Z.of_nat m <= 2 ^ 31)%Z ->
  length facet = length cell * S tdim -> Forall (fun f => (-1 <= f <= Z.of_nat tdim)%Z) facet ->
  (forall p q k, facet_child tdim cf cf1 original offset cell facet p k -> facet_child tdim cf cf1 original offset cell facet q k -> p = q) ->
  length indices = length values -> NoDup indices -> Forall (fun p => p < num_facets) indices ->
  exists is vs, transfer_facet_meshtag false tdim num_facets (Some cf) (Some cf1) original offset cell facet indices values = Some (is, vs) /\ length is = length vs /\ StronglySorted lt is /\
    forall k v, In (k, v) (combine is vs) <-> exists p, facet_child tdim cf cf1 original offset cell facet p k /\ In (p, v) (combine indices values).
Proof. exact transfer_facet_ok. Qed.
Print Assumptions C55_transfer_facets.

(** C55: ghosted meshes, tags of the wrong dimension and missing connectivities are errors. *)
Theorem C55_rejects :
  (forall dim_ok ghosted num_cells original offset cell indices values, dim_ok = false \/ ghosted = true ->
     transfer_cell_meshtag dim_ok ghosted num_cells original offset cell indices values = None) /\
  (forall ghosted tdim num_facets cf cf1 original offset cell facet indices values, ghosted = true \/ cf = None \/ cf1 = None ->
     transfer_facet_meshtag ghosted tdim num_facets cf cf1 original offset cell facet indices values = None).
Proof.
  split.
  - intros dim_ok ghosted num_cells original offset cell indices values [->| ->]; [reflexivity|]. destruct dim_ok; reflexivity.
  - intros ghosted tdim num_facets cf cf1 original offset cell facet indices values [->|[->| ->]]; [reflexivity|destruct ghosted; reflexivity|].
    unfold transfer_facet_meshtag. destruct ghosted; [reflexivity|]. destruct cf; [|reflexivity]. cbn [obind]. destruct (local_cell_index original offset); reflexivity.
Qed.
Print Assumptions C55_rejects.

(** Two triangles, the first split in two: cells 0, 1 from parent 0 and 2 from parent 1,
    reordered. *)
Example ex_cells : transfer_cell_meshtag true false 2 [11; 12; 10] 10 [0; 0; 1] [0; 1] [7; -3]%Z = Some ([0; 1; 2], [7; -3; 7]%Z).
Proof. vm_compute. reflexivity. Qed.
Example ex_facets : transfer_facet_meshtag false 1 3 (Some [[0; 1]; [1; 2]]) (Some [[1; 2]; [2; 3]; [0; 1]]) [11; 12; 10] 10 [0; 0; 1]
  [0; -1; -1; 1; 0; 1]%Z [0; 1; 2] [5; 6; 7]%Z = Some ([0; 2; 3], [5; 6; 7]%Z).
Proof. vm_compute. reflexivity. Qed.
