(** Proofs about VTX files, for property C92. *)
From Verif Require Import Base BaseProofs CellTypes Cells CellsSpec CellsInverse PlazaOrder DofCoords DofCoordsSpec DofCoordsProofs Vtx VtxSpec.
Open Scope nat_scope.

Lemma slice_row {X} (rows : list (list X)) n c row : (forall r, In r rows -> length r = n) -> nth_error rows c = Some row -> slice (concat rows) (c * n) (c * n + n) = Some row.
Proof.
  intros H E. assert (L : length row = n) by (apply H; exact (nth_error_In _ _ E)). apply nth_error_split in E as (l1 & l2 & -> & <-). rewrite concat_app. cbn [concat].
  rewrite <- (concat_len l1 n) by (intros r Hr; apply H, in_or_app; now left). rewrite <- L. apply slice_app_mid.
Qed.
Lemma pack_ok n rows : (forall r, In r rows -> length r = n) -> pack_cells (length rows) n (concat rows) = Some (concat (map (cons n) rows)).
Proof.
  intro H. unfold pack_cells. rewrite (omap_map _ (fun c => n :: nth c rows [])).
  - cbn [obind]. do 2 f_equal. apply nth_error_ext. intro c. destruct (Nat.lt_ge_cases c (length rows)) as [Hc|Hc].
    + rewrite !nth_error_map, nth_error_seq by exact Hc. cbn [option_map Nat.add]. rewrite (nth_error_nth' rows [] Hc). reflexivity.
    + rewrite !(proj2 (nth_error_None _ _)); [reflexivity|rewrite map_length; exact Hc|rewrite map_length, seq_length; exact Hc].
  - intros c Hc. apply in_seq in Hc. rewrite (slice_row rows n c (nth c rows []) H) by (apply nth_error_nth'; lia). reflexivity.
Qed.
Section Rows.
Variables (num_cells nn : nat) (p q : list Z) (dofmap : list (list nat)) (rows : list (list nat)).
Hypothesis Hp : is_permutation p (Z.of_nat nn).
Hypothesis Hq : is_permutation q (Z.of_nat nn).
Hypothesis Hi : inverse p q.
Hypothesis Hn : num_cells <= length dofmap.
Hypothesis Hd : forall c dofs, c < num_cells -> nth_error dofmap c = Some dofs -> length dofs = nn.
Definition vrow (dofs : list nat) : list nat := map (fun i => nth (Z.to_nat (nth i q 0%Z)) dofs 0) (seq 0 nn).
Lemma vrow_ok dofs : length dofs = nn -> omap (fun i => k <- nth_error q i ;; nth_error dofs (Z.to_nat k)) (seq 0 nn) = Some (vrow dofs).
Proof.
  clear Hp Hi Hn Hd. intro L. pose proof (permutation_len q (Z.of_nat nn) ltac:(lia) Hq) as Lq. apply omap_map. intros i Hin. apply in_seq in Hin. rewrite (nth_error_nth' q 0%Z) by lia. cbn [obind].
  assert (Hx : (0 <= nth i q 0 < Z.of_nat nn)%Z) by (apply (proj2 Hq), nth_In; lia). apply nth_error_nth'. lia.
Qed.
Lemma vrow_at dofs i v : length dofs = nn -> nth_error p i = Some (Z.of_nat v) -> nth_error (vrow dofs) v = nth_error dofs i.
Proof.
  clear Hq Hn Hd. intros L E. assert (Hv : (0 <= Z.of_nat v < Z.of_nat nn)%Z) by (apply (proj2 Hp); exact (nth_error_In _ _ E)). pose proof (permutation_len p (Z.of_nat nn) ltac:(lia) Hp) as Lp. pose proof (nth_error_bound _ _ _ E) as Hb. apply Hi in E.
  unfold vrow. rewrite nth_error_map, nth_error_seq by lia. cbn [option_map Nat.add]. rewrite (nth_error_nth _ _ _ E), Nat2Z.id. symmetry. apply nth_error_nth'. lia.
Qed.
Lemma packed_ok : packed_cells num_cells nn p dofmap (concat (map (cons nn) (map vrow (firstn num_cells dofmap)))).
Proof.
  assert (Hl : forall r, In r (map (cons nn) (map vrow (firstn num_cells dofmap))) -> length r = nn + 1).
  { intros r Hr. apply in_map_iff in Hr as (r' & <- & Hr). apply in_map_iff in Hr as (d & <- & _). cbn [length]. unfold vrow. rewrite map_length, seq_length. lia. }
  split; [rewrite (concat_len _ (nn + 1) Hl), !map_length, firstn_length; f_equal; lia|]. intros c dofs Hc E. pose proof (Hd c dofs Hc E) as L.
  assert (Er : nth_error (map (cons nn) (map vrow (firstn num_cells dofmap))) c = Some (nn :: vrow dofs)).
  { rewrite !nth_error_map. rewrite <- (firstn_skipn num_cells dofmap), nth_error_app1 in E by (rewrite firstn_length; lia). now rewrite E. }
  split.
  - rewrite <- (Nat.add_0_r (c * (nn + 1))). rewrite (nth_concat _ (nn + 1) Hl c _ 0 Er) by lia. reflexivity.
  - intros i v Ev. assert (Hv : (0 <= Z.of_nat v < Z.of_nat nn)%Z) by (apply (proj2 Hp); exact (nth_error_In _ _ Ev)).
    rewrite <- Nat.add_assoc. rewrite (nth_concat _ (nn + 1) Hl c _ (1 + v) Er) by lia. exact (vrow_at dofs i v L Ev).
Qed.
End Rows.

Lemma vtx_mesh_ok size_local num_ghosts t deg nn dofmap_x : lagrange_nodes t deg (Z.of_nat nn) -> (1 <= deg)%Z -> (Z.of_nat nn <= 65536)%Z -> (forall row, In row dofmap_x -> length row = nn) ->
  exists ghost cells p, vtx_mesh size_local num_ghosts t nn dofmap_x = Some (ghost, cells) /\ perm_vtk t (Z.of_nat nn) = Some p /\ is_permutation p (Z.of_nat nn) /\
  packed_cells (length dofmap_x) nn p dofmap_x cells /\ length ghost = size_local + num_ghosts /\ forall d, d < size_local + num_ghosts -> nth_error ghost d = Some (size_local <=? d).
Proof.
  intros Hl Hd Hn Hr. destruct (perm_vtk_statement t deg (Z.of_nat nn) Hl Hd Hn) as (p & q & E1 & E2 & P1 & P2 & I).
  unfold vtx_mesh, extract_vtk_connectivity. rewrite E1. cbn [obind]. rewrite E2. cbn [obind].
  rewrite (omap_map _ (vrow nn q)) by (intros row H; apply vrow_ok; auto). cbn [obind].
  assert (Ep : pack_cells (length dofmap_x) nn (concat (map (vrow nn q) dofmap_x)) = Some (concat (map (cons nn) (map (vrow nn q) dofmap_x)))).
  { rewrite <- (pack_ok nn) by (intros r Hin; apply in_map_iff in Hin as (d & <- & _); unfold vrow; now rewrite map_length, seq_length). now rewrite map_length. }
  rewrite Ep. cbn [obind].
  unfold point_ghosts. destruct (Nat.ltb_spec (size_local + num_ghosts) size_local); [lia|]. cbn [obind].
  eexists _, _, p. split; [reflexivity|]. split; [reflexivity|]. split; [exact P1|]. split.
  - pose proof (packed_ok (length dofmap_x) nn p q dofmap_x) as H0. rewrite firstn_all in H0. apply H0; auto. intros c dofs Hc E. apply Hr. exact (nth_error_In _ _ E).
  - split; [rewrite app_length, !repeat_length; lia|]. intros d Hdd. destruct (Nat.leb_spec size_local d).
    + rewrite nth_error_app2, repeat_length by (rewrite repeat_length; lia). apply nth_error_repeat. lia.
    + rewrite nth_error_app1 by (rewrite repeat_length; lia). apply nth_error_repeat. lia.
Qed.

Section Space.
Variables (T : Type) (zero : T) (add mul : T -> T -> T) (gdim : nat) (x_g : list T) (V : dof_cells T).
Variables (range0 size_local : nat) (ghosts : list nat) (bs space_dimension block_size : nat) (t : cell_type) (deg : Z) (nn : nat).
Hypothesis Hg : gdim <= 3.
Hypothesis Hbs : 0 < bs.
Hypothesis Hb : 0 < block_size.
Hypothesis Hnn : nn = space_dimension / block_size.
Hypothesis Hfit : cells_fit T x_g nn (size_local + length ghosts) V.
Hypothesis Hphi : length (dc_phi T V) = nn.
Hypothesis Hagree : points_agree T zero add mul gdim x_g [V].
Hypothesis Hl : lagrange_nodes t deg (Z.of_nat nn).
Hypothesis Hdeg : (1 <= deg)%Z.
Hypothesis Hn : (Z.of_nat nn <= 65536)%Z.
Lemma dofs_ok c : c < dc_ncells T V -> exists dofs, nth_error (dc_dofs T V) c = Some dofs /\ length dofs = nn.
Proof. intro Hc. destruct Hfit as (_ & _ & _ & nd & _ & H). destruct (H c Hc) as (nodes & dofs & _ & E & _ & _ & L & _). exists dofs. split; [exact E|lia]. Qed.
Lemma cells_len : dc_ncells T V <= length (dc_dofs T V).
Proof. destruct (dc_ncells T V) as [|n] eqn:E; [lia|]. destruct (dofs_ok n ltac:(lia)) as (dofs & Ed & _). apply nth_error_bound in Ed. lia. Qed.
Lemma vtx_space_ok : exists x ids ghost cells p,
  vtx_mesh_from_space T zero add mul gdim x_g false bs range0 size_local ghosts bs space_dimension block_size t V = Some (x, ids, ghost, cells) /\
  perm_vtk t (Z.of_nat nn) = Some p /\ is_permutation p (Z.of_nat nn) /\ packed_cells (dc_ncells T V) nn p (dc_dofs T V) cells /\
  length x = 3 * (size_local + length ghosts) /\ length ids = size_local + length ghosts /\ length ghost = size_local + length ghosts /\
  forall d, d < size_local + length ghosts ->
    (exists g, nth_error ids d = Some g /\ has_global range0 size_local ghosts d g) /\ nth_error ghost d = Some (size_local <=? d) /\
    forall k, k < 3 ->
      (forall pt, has_point T zero add mul x_g [V] d pt -> k < gdim -> nth_error x (3 * d + k) = Some (pt k)) /\
      ((forall pt, ~ has_point T zero add mul x_g [V] d pt) \/ gdim <= k -> nth_error x (3 * d + k) = Some zero).
Proof.
  assert (Hn0 : bs * (size_local + length ghosts) / bs = size_local + length ghosts) by (rewrite Nat.mul_comm; apply Nat.div_mul; lia).
  destruct (perm_vtk_statement t deg (Z.of_nat nn) Hl Hdeg Hn) as (p & q & E1 & E2 & P1 & P2 & I).
  destruct (tabulate_ok T zero add mul gdim x_g Hg false [V] nn (size_local + length ghosts)) with (index_map_bs := bs) (num_indices := size_local + length ghosts) (dofmap_bs := bs) (space_dimension := space_dimension) (block_size := block_size) as (x & Ex & Lx & Hx); auto.
  { intros t' [<-|[]]. exact Hfit. }
  unfold tabulate_dof_coordinates in Ex. cbn [orb] in Ex. unfold vtx_mesh_from_space.
  destruct (Nat.eqb_spec bs 0); [lia|]. destruct (Nat.eqb_spec block_size 0); [lia|]. cbn [orb] in Ex |- *. cbv zeta in Ex |- *. rewrite Hn0, <- Hnn in Ex |- *. cbn [ofold] in Ex. rewrite (proj1 Hfit) in Ex. cbn [negb] in Ex.
  destruct (ofold (cell_coords T zero add mul gdim x_g false (size_local + length ghosts) nn V) (seq 0 (dc_ncells T V)) (repeat zero (3 * (size_local + length ghosts)))) as [x'|]; [|discriminate]. cbn [obind] in Ex |- *. injection Ex as ->.
  unfold point_ids, point_ghosts. destruct (Nat.ltb_spec (size_local + length ghosts) (size_local + length ghosts)); [lia|]. destruct (Nat.ltb_spec (size_local + length ghosts) size_local); [lia|]. cbn [obind].
  unfold vtk_topology. rewrite E1. cbn [obind]. rewrite E2. cbn [obind].
  rewrite (omap_map _ (fun c => vrow nn q (nth c (dc_dofs T V) []))).
  2:{ intros c Hc. apply in_seq in Hc. destruct (dofs_ok c ltac:(lia)) as (dofs & Ed & L). rewrite Ed. cbn [obind]. rewrite L, (vrow_ok nn q P2 dofs L). cbn [obind]. rewrite Nat.sub_diag, app_nil_r. now rewrite (nth_error_nth _ _ _ Ed). }
  cbn [obind]. pose proof cells_len as Hc. assert (Er : map (fun c => vrow nn q (nth c (dc_dofs T V) [])) (seq 0 (dc_ncells T V)) = map (vrow nn q) (firstn (dc_ncells T V) (dc_dofs T V))).
  { rewrite <- (map_map (fun c => nth c (dc_dofs T V) []) (vrow nn q)). f_equal. apply nth_error_ext. intro c. destruct (Nat.lt_ge_cases c (dc_ncells T V)) as [H1|H1].
    - rewrite nth_error_map, nth_error_seq by exact H1. cbn [option_map Nat.add]. destruct (dofs_ok c H1) as (dofs & Ed & _). rewrite (nth_error_nth _ _ _ Ed). rewrite <- (firstn_skipn (dc_ncells T V) (dc_dofs T V)), nth_error_app1 in Ed by (rewrite firstn_length; lia). now rewrite Ed.
    - rewrite !(proj2 (nth_error_None _ _)); [reflexivity|rewrite firstn_length; lia|rewrite map_length, seq_length; exact H1]. }
  rewrite Er. assert (Ep : pack_cells (dc_ncells T V) nn (concat (map (vrow nn q) (firstn (dc_ncells T V) (dc_dofs T V)))) = Some (concat (map (cons nn) (map (vrow nn q) (firstn (dc_ncells T V) (dc_dofs T V)))))).
  { rewrite <- (pack_ok nn) by (intros r Hin; apply in_map_iff in Hin as (d & <- & _); unfold vrow; now rewrite map_length, seq_length). f_equal. rewrite map_length, firstn_length. lia. }
  rewrite Ep. cbn [obind]. eexists x, _, _, _, p. split; [reflexivity|]. split; [reflexivity|]. split; [exact P1|]. split.
  { apply packed_ok with (q := q); auto. intros c dofs Hlt Ed. destruct (dofs_ok c Hlt) as (dofs' & Ed' & L). congruence. }
  split; [exact Lx|]. split; [rewrite !app_length, map_length, seq_length, repeat_length; lia|]. split; [rewrite app_length, !repeat_length; lia|]. intros d Hd. split; [|split].
  - destruct (Nat.lt_ge_cases d size_local) as [H1|H1].
    + exists (range0 + d). split; [|left; now split]. rewrite nth_error_app1 by (rewrite map_length, seq_length; exact H1). rewrite nth_error_map, nth_error_seq by exact H1. reflexivity.
    + destruct (nth_error_lt ghosts (d - size_local) ltac:(lia)) as (g & Eg). exists g. split; [|right; now split]. rewrite nth_error_app2, map_length, seq_length by (rewrite map_length, seq_length; exact H1). rewrite nth_error_app1 by lia. exact Eg.
  - destruct (Nat.leb_spec size_local d).
    + rewrite nth_error_app2, repeat_length by (rewrite repeat_length; lia). apply nth_error_repeat. lia.
    + rewrite nth_error_app1 by (rewrite repeat_length; lia). apply nth_error_repeat. lia.
  - intros k Hk. specialize (Hx d k Hd Hk). unfold coord_at in Hx. replace (3 * d + k) with (d * 3 + k) by lia. exact Hx.
Qed.
End Space.

Lemma vtx_data_ok T (zero : T) bs num_indices value_shape u : 0 < bs -> bs <= num_components value_shape -> length u = bs * num_indices ->
  exists data, vtx_data T zero bs num_indices bs value_shape u = Some data /\ length data = num_indices * num_components value_shape /\
  forall d j, d < num_indices -> j < num_components value_shape -> nth_error data (d * num_components value_shape + j) = if j <? bs then nth_error u (d * bs + j) else Some zero.
Proof.
  intros Hb Hc Hu. set (nc := num_components value_shape) in *. unfold vtx_data. fold nc. destruct (Nat.eqb_spec bs 0); [lia|]. cbv zeta. rewrite (Nat.mul_comm bs num_indices), Nat.div_mul by lia.
  destruct (Nat.ltb_spec nc bs); [lia|]. cbn [andb].
  rewrite (omap_map _ (fun i => firstn bs (skipn (i * bs) u) ++ repeat zero (nc - bs))).
  2:{ intros i Hi. apply in_seq in Hi. rewrite (proj2 (slice_some u (i * bs) (i * bs + bs) (firstn bs (skipn (i * bs) u)))); [reflexivity|]. split; [lia|]. split; [nia|]. f_equal. lia. }
  cbn [obind]. eexists. split; [reflexivity|].
  assert (Hl : forall r, In r (map (fun i => firstn bs (skipn (i * bs) u) ++ repeat zero (nc - bs)) (seq 0 num_indices)) -> length r = nc).
  { intros r Hr. apply in_map_iff in Hr as (i & <- & Hi). apply in_seq in Hi. rewrite app_length, repeat_length, firstn_length, skipn_length. nia. }
  split; [rewrite (concat_len _ nc Hl), map_length, seq_length; reflexivity|]. intros d j Hd Hj.
  rewrite (nth_concat _ nc Hl d (firstn bs (skipn (d * bs) u) ++ repeat zero (nc - bs)) j) by (exact Hj || (rewrite nth_error_map, nth_error_seq by exact Hd; reflexivity)).
  assert (Lf : length (firstn bs (skipn (d * bs) u)) = bs) by (rewrite firstn_length, skipn_length; nia).
  destruct (Nat.ltb_spec j bs) as [H1|H1].
  - rewrite nth_error_app1 by lia. assert (E : u = firstn (d * bs) u ++ skipn (d * bs) u) by (symmetry; apply firstn_skipn). rewrite E at 2. rewrite nth_error_app2, firstn_length by (rewrite firstn_length; nia).
    replace (d * bs + j - Nat.min (d * bs) (length u)) with j by nia. rewrite <- (firstn_skipn bs (skipn (d * bs) u)) at 2. rewrite nth_error_app1 by lia. reflexivity.
  - rewrite nth_error_app2 by lia. apply nth_error_repeat. lia.
Qed.

Lemma num_components_ok value_shape : num_components value_shape = padded_width value_shape.
Proof.
  unfold num_components, padded_width. rewrite (fold_symmetric Nat.mul Nat.mul_assoc) by (intro; apply Nat.mul_comm). cbv zeta. set (a := fold_right _ _ _). set (b := 3 ^ _). destruct (Nat.ltb_spec a b); lia.
Qed.
