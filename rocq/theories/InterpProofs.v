(** Interpolation of point values: each loop writes the dofs of the cells. *)
From Verif Require Import Base BaseProofs Interp InterpSpec InterpWrites.

(** ** The numbering of the lower triangle *)
Definition rr (k : nat) : nat * nat := fold_left (fun s k => next_row k s) (seq 0 (S k)) (0, 0).
Lemma rr_S k : rr (S k) = next_row (S k) (rr k).
Proof. unfold rr. rewrite (seq_S (S k)), fold_left_app. reflexivity. Qed.
Lemma rr_spec k : 2 * snd (rr k) = fst (rr k) * (fst (rr k) + 1) /\ snd (rr k) <= k <= snd (rr k) + fst (rr k).
Proof.
  induction k as [|k IH]; [cbn; lia|]. rewrite rr_S. unfold next_row. destruct (rr k) as [row start]. cbn [fst snd] in IH.
  destruct (Nat.ltb_spec row (S k - start)); cbn [fst snd]; lia.
Qed.
Lemma rr_component k n row col : col <= row -> 2 * k = row * (row + 1) + 2 * col ->
  rr k = (row, k - col) /\ fst (rr k) * n + k - snd (rr k) = n * row + col.
Proof.
  intros Hc Hk. pose proof (rr_spec k) as S. destruct (rr k) as [r s]. cbn [fst snd] in *.
  assert (r = row) as -> by nia. assert (s = k - col) as -> by nia. split; [reflexivity|]. nia.
Qed.
Lemma component_rr n k : 2 * k < n * (n + 1) -> fst (rr k) < n /\ component true n k (fst (rr k) * n + k - snd (rr k)).
Proof.
  intro H. pose proof (rr_spec k) as S. destruct (rr k) as [r s]. cbn [fst snd] in *. assert (L : r < n) by nia. split; [exact L|].
  exists r, (k - s). repeat split; nia.
Qed.
Lemma component_fun n k c1 c2 b : component b n k c1 -> component b n k c2 -> c1 = c2.
Proof.
  destruct b; cbn; [|congruence]. intros (r1 & l1 & A1 & B1 & C1 & D1) (r2 & l2 & A2 & B2 & C2 & D2).
  assert (r1 = r2) as -> by nia. assert (l1 = l2) as -> by nia. congruence.
Qed.
Lemma matrix_size_square n : matrix_size (n * n) = n.
Proof.
  unfold matrix_size. assert (G : forall fuel m, m <= n <= m + fuel -> matrix_size_from fuel m (n * n) = n).
  { induction fuel as [|g IH]; intros m H; cbn [matrix_size_from]; [lia|]. destruct (Nat.ltb_spec (m * m) (n * n)); [apply IH; nia|nia]. }
  apply G. nia.
Qed.

Section Interp.
Variables (T : Type) (zero : T) (add mul : T -> T -> T).

Lemma slice_values (f : list T) n1 npoints comp o : comp * n1 + o * npoints + npoints <= length f ->
  slice f (comp * n1 + o * npoints) (comp * n1 + o * npoints + npoints) = Some (point_values T zero f n1 npoints comp o).
Proof.
  intro H. apply slice_some. split; [lia|]. split; [lia|]. apply nth_error_ext. intro i.
  replace (comp * n1 + o * npoints + npoints - (comp * n1 + o * npoints)) with npoints by lia. unfold point_values.
  set (a := comp * n1 + o * npoints) in *. rewrite nth_error_map_some.
  destruct (Nat.lt_ge_cases i npoints) as [L|G].
  - rewrite nth_error_seq by exact L. cbn [option_map]. symmetry.
    assert (E : forall (l : list T) m i, i < m -> nth_error (firstn m l) i = nth_error l i).
    { clear. induction l as [|x l IH]; intros [|m] [|i] H; cbn; try lia; auto. apply IH. lia. }
    rewrite E by exact L. assert (E2 : forall (l : list T) m i, nth_error (skipn m l) i = nth_error l (m + i)).
    { clear. induction l as [|x l IH]; intros [|m] i; cbn; auto. now destruct i. }
    rewrite E2. cbn [plus]. apply nth_error_nth'. lia.
  - rewrite (proj2 (nth_error_None _ _)), (proj2 (nth_error_None _ _)); [reflexivity| |]; [rewrite firstn_length; lia|rewrite seq_length; lia].
Qed.

(** [write_block] writes the dofs [i * element_bs + k]. *)
Definition dof_place (bs : nat) (dofs : list nat) (m : nat) : nat := bs * nth (m / bs) dofs 0 + m mod bs.
Lemma write_block_wr ebs dbs dofs k nsd cb coeffs : 0 < dbs -> k < ebs -> dbs * length dofs = ebs * nsd -> length cb = nsd ->
  write_block T ebs dbs dofs k nsd cb coeffs = wr (map (fun i => (dof_place dbs dofs (i * ebs + k), nth i cb zero)) (seq 0 nsd)) coeffs.
Proof.
  intros Hd Hk Hl Hc. unfold write_block. destruct (Nat.eqb_spec dbs 0) as [|_]; [lia|].
  rewrite (ofold_writes _ (fun i => [(dof_place dbs dofs (i * ebs + k), nth i cb zero)])); [now rewrite concat_singles|].
  intros i arr Hi. apply in_seq in Hi. rewrite wr_one. rewrite (nth_error_nth' cb zero) by lia. cbn [obind]. unfold dof_place.
  assert (Hm : i * ebs + k < dbs * length dofs) by nia.
  assert (Hq : (i * ebs + k) / dbs < length dofs) by (apply Nat.div_lt_upper_bound; lia).
  destruct (Nat.eqb_spec dbs ebs) as [->|_].
  - assert (E1 : (i * ebs + k) / ebs = i) by (rewrite Nat.add_comm, Nat.div_add by lia; rewrite Nat.div_small by lia; lia).
    assert (E2 : (i * ebs + k) mod ebs = k) by (rewrite Nat.add_comm, Nat.mod_add by lia; now apply Nat.mod_small).
    rewrite E1 in *. rewrite E2. now rewrite (nth_error_nth' dofs 0) by lia.
  - now rewrite (nth_error_nth' dofs 0) by lia.
Qed.

Lemma cell_dof_place bs dofmap c dofs m : nth_error dofmap c = Some dofs -> 0 < bs -> m < bs * length dofs ->
  cell_dof bs dofmap c m = Some (dof_place bs dofs m).
Proof.
  intros Hc Hb Hm. unfold cell_dof, dof_place. rewrite Hc. rewrite (nth_error_nth' dofs 0); [reflexivity|]. apply Nat.div_lt_upper_bound; lia.
Qed.

(** The writes of a cell, when block [k] writes [cb o c k]. *)
Lemma cell_blocks ebs nsd dbs dofmap cells (cb : nat -> nat -> nat -> list T) (value : nat -> nat -> T) coeffs :
  dofmap_fits dbs dofmap (ebs * nsd) (length coeffs) cells ->
  (forall o c i k, nth_error cells o = Some c -> i < nsd -> k < ebs -> value o (i * ebs + k) = nth i (cb o c k) zero) ->
  exists coeffs', wr (concat (map (fun oc => concat (map (fun k => map (fun i => (dof_place dbs (nth (snd oc) dofmap []) (i * ebs + k), nth i (cb (fst oc) (snd oc) k) zero)) (seq 0 nsd)) (seq 0 ebs)))
      (combine (seq 0 (length cells)) cells))) coeffs = Some coeffs' /\
    written dbs dofmap (ebs * nsd) cells value coeffs coeffs'.
Proof.
  intros Hf Hv.
  apply (written_cells dbs dofmap (ebs * nsd) cells value (fun o c => concat (map (fun k => map (fun i => (dof_place dbs (nth c dofmap []) (i * ebs + k), nth i (cb o c k) zero)) (seq 0 nsd)) (seq 0 ebs))) coeffs Hf).
  - destruct Hf as (Hb & Hf). intros o c pv Ho Hin. apply in_concat in Hin as (l & Hl & Hin). apply in_map_iff in Hl as (k & <- & Hk). apply in_map_iff in Hin as (i & <- & Hi).
    apply in_seq in Hk, Hi. cbn [fst snd]. exists (i * ebs + k). split; [nia|].
    destruct (Hf c (nth_error_In _ _ Ho)) as (dofs & Hn & Hl & _). split; [|symmetry; apply Hv; [exact Ho|lia|lia]].
    rewrite (nth_error_nth _ _ [] Hn). apply cell_dof_place; [exact Hn|exact Hb|nia].
  - destruct Hf as (Hb & Hf). intros o c m a Ho Hm Ha. destruct (Hf c (nth_error_In _ _ Ho)) as (dofs & Hn & Hl & _).
    assert (He : 0 < ebs) by (destruct ebs; [lia|lia]).
    pose proof (Nat.mod_upper_bound m ebs ltac:(lia)) as M. pose proof (Nat.div_mod m ebs ltac:(lia)) as D.
    exists (nth (m / ebs) (cb o c (m mod ebs)) zero). apply in_concat.
    exists (map (fun i => (dof_place dbs (nth c dofmap []) (i * ebs + m mod ebs), nth i (cb o c (m mod ebs)) zero)) (seq 0 nsd)). split.
    + apply (in_map (fun k => map (fun i => (dof_place dbs (nth c dofmap []) (i * ebs + k), nth i (cb o c k) zero)) (seq 0 nsd))). apply in_seq. lia.
    + apply in_map_iff. exists (m / ebs). split; [|apply in_seq; split; [lia|]; cbn; apply Nat.div_lt_upper_bound; lia].
      f_equal. rewrite (nth_error_nth _ _ [] Hn). rewrite (cell_dof_place dbs dofmap c dofs) in Ha by (try assumption; nia). injection Ha as <-. f_equal. nia.
Qed.

(** ** Point evaluation *)
Lemma point_evaluation_written ebs nsd dbs symmetric dofmap transform cells (f : list T) n0 n n1 coeffs value :
  dofmap_fits dbs dofmap (ebs * nsd) (length coeffs) cells ->
  (forall c vs, In c cells -> length vs = nsd -> length (transform c vs) = nsd) ->
  (if symmetric : bool then n0 = n * n /\ 2 * ebs = n * (n + 1) else n0 = ebs) ->
  n1 = length cells * nsd -> length f = n0 * n1 ->
  (forall o c i k comp, nth_error cells o = Some c -> i < nsd -> k < ebs -> component symmetric n k comp ->
     value o (i * ebs + k) = nth i (transform c (point_values T zero f n1 nsd comp o)) zero) ->
  exists coeffs', point_evaluation T ebs nsd dbs symmetric dofmap transform cells f (n0, n1) coeffs = Some coeffs' /\
    written dbs dofmap (ebs * nsd) cells value coeffs coeffs'.
Proof.
  intros Hf Ht Hs Hn1 Hlen Hv.
  set (comp := fun k => if symmetric then fst (rr k) * n + k - snd (rr k) else k).
  assert (HC : forall k, k < ebs -> component symmetric n k (comp k) /\ comp k < n0).
  { intros k Hk. unfold comp. destruct symmetric; [|cbn; lia]. destruct Hs as [-> Hs]. destruct (component_rr n k ltac:(lia)) as (A & B). split; [exact B|].
    destruct B as (r & c & B1 & B2 & B3 & B4). rewrite B4. nia. }
  destruct (cell_blocks ebs nsd dbs dofmap cells (fun o c k => transform c (point_values T zero f n1 nsd (comp k) o)) value coeffs Hf) as (coeffs' & E & W).
  { intros o c i k Ho Hi Hk. apply Hv; auto. now apply HC. }
  exists coeffs'. split; [|exact W]. rewrite <- E. unfold point_evaluation. cbn [fst snd]. apply ofold_writes.
  destruct Hf as (Hb & Hf). intros [o c] arr Hin.
  assert (Ho : nth_error cells o = Some c /\ o < length cells).
  { apply In_nth_error in Hin as (i & Hi). assert (L : i < length cells). { pose proof (nth_error_bound _ _ _ Hi) as Q. rewrite combine_length, seq_length in Q. lia. }
    destruct (nth_error_lt cells i L) as (c' & Hc'). pose proof (nth_error_enum cells 0 i c' Hc') as Q. rewrite Hi in Q. cbn in Q. injection Q as -> ->. now split. }
  destruct Ho as (Ho & Lo). destruct (Hf c (nth_error_In _ _ Ho)) as (dofs & Hn & Hl & _). rewrite Hn. cbn [obind fst snd]. rewrite (nth_error_nth _ _ [] Hn).
  assert (G : forall j s a, s + j <= ebs ->
     ofold (fun st k => let '(rr, a) := st in
        let '(row, rowstart) := next_row k rr in
        let comp := if symmetric then row * matrix_size n0 + k - rowstart else k in
        let start := comp * n1 + o * nsd in
        vs <- slice f start (start + nsd) ;;
        a' <- write_block T ebs dbs dofs k nsd (transform c vs) a ;;
        Some ((row, rowstart), a')) (seq s j) (match s with 0 => (0, 0) | S s' => rr s' end, a)
     = (a' <- wr (concat (map (fun k => map (fun i => (dof_place dbs dofs (i * ebs + k), nth i (transform c (point_values T zero f n1 nsd (comp k) o)) zero)) (seq 0 nsd)) (seq s j))) a ;;
        Some (match s + j with 0 => (0, 0) | S s' => rr s' end, a'))).
  { induction j as [|j IH]; intros s a Hj.
    - cbn. now rewrite Nat.add_0_r.
    - cbn [seq ofold map concat]. rewrite wr_app.
      assert (R : next_row s (match s with 0 => (0, 0) | S s' => rr s' end) = rr s). { destruct s; [reflexivity|]. symmetry. apply rr_S. }
      rewrite R. destruct (rr s) as [row start] eqn:Er.
      assert (K : (if symmetric then row * matrix_size n0 + s - start else s) = comp s).
      { unfold comp. rewrite Er. destruct symmetric; [|reflexivity]. destruct Hs as [-> _]. now rewrite matrix_size_square. }
      rewrite K. cbn [obind]. rewrite slice_values.
      2:{ destruct (HC s ltac:(lia)) as (_ & L). rewrite Hlen. nia. }
      cbn [obind]. rewrite (write_block_wr ebs dbs dofs s nsd (transform c (point_values T zero f n1 nsd (comp s) o))).
      2:{ exact Hb. } 2:{ lia. } 2:{ exact Hl. } 2:{ apply Ht; [eapply nth_error_In; eauto|]. unfold point_values. now rewrite map_length, seq_length. }
      destruct (wr (map _ _) a) as [a1|] eqn:E1; cbn [obind]; [|reflexivity].
      specialize (IH (S s) a1 ltac:(lia)). cbn beta iota in IH. rewrite Er in IH. etransitivity; [exact IH|]. now replace (s + S j) with (S s + j) by lia. }
  specialize (G ebs 0 arr ltac:(lia)). cbn beta iota in G. etransitivity; [apply (f_equal (fun z => '(_, a') <- z ;; Some a')); exact G|].
  destruct (wr _ arr) as [a'|]; reflexivity.
Qed.

Lemma fold_dot a : forall b s, fold_left (fun s pd => add s (mul (fst pd) (snd pd))) (combine a b) s = dot_from T add mul s a b.
Proof. induction a as [|x a IH]; intros [|y b] s; cbn; auto. Qed.
Lemma apply_dot Pi data : (forall row, In row Pi -> length row = length data) ->
  interpolation_apply T zero add mul Pi data = Some (map (fun row => dot T zero add mul row data) Pi).
Proof.
  intro H. apply omap_map. intros row Hr. unfold row_times. rewrite (H _ Hr), Nat.eqb_refl. now rewrite fold_dot.
Qed.

(** ** Elements that are not point evaluations *)
Lemma identity_mapped_written ebs nsd vs dbs npoints Pi dofmap transform cells (f : list T) n0 n1 coeffs value :
  dofmap_fits dbs dofmap (ebs * nsd) (length coeffs) cells ->
  (forall c vs, In c cells -> length vs = nsd -> length (transform c vs) = nsd) ->
  0 < vs -> (vs = 1 \/ ebs <= 1) -> n0 = vs * ebs ->
  length Pi = nsd -> (forall row, In row Pi -> length row = vs * npoints) ->
  n1 = length cells * npoints -> length f = n0 * n1 ->
  (forall o c i k, nth_error cells o = Some c -> i < nsd -> k < ebs ->
     value o (i * ebs + k) = nth i (transform c (map (fun row => dot T zero add mul row (concat (map (fun j => point_values T zero f n1 npoints (j + k) o) (seq 0 vs)))) Pi)) zero) ->
  exists coeffs', identity_mapped_evaluation T zero add mul ebs nsd vs dbs false (vs * npoints) Pi dofmap transform cells f (n0, n1) coeffs = Some coeffs' /\
    written dbs dofmap (ebs * nsd) cells value coeffs coeffs'.
Proof.
  intros Hf Ht Hvs Hor Hn0 HPi Hrow Hn1 Hlen Hv.
  destruct (cell_blocks ebs nsd dbs dofmap cells (fun o c k => transform c (map (fun row => dot T zero add mul row (concat (map (fun j => point_values T zero f n1 npoints (j + k) o) (seq 0 vs)))) Pi)) value coeffs Hf Hv) as (coeffs' & E & W).
  exists coeffs'. split; [|exact W]. rewrite <- E. unfold identity_mapped_evaluation. cbn [fst snd].
  replace ((1 <? vs) && (1 <? ebs)) with false.
  2:{ symmetry. destruct Hor as [-> | H]; [reflexivity|]. apply andb_false_iff. right. apply Nat.ltb_ge. exact H. }
  destruct (Nat.eqb_spec vs 0) as [|_]; [lia|]. rewrite HPi, Nat.eqb_refl. cbn [orb negb].
  apply ofold_writes. destruct Hf as (Hb & Hf). intros [o c] arr Hin.
  assert (Ho : nth_error cells o = Some c /\ o < length cells).
  { apply In_nth_error in Hin as (i & Hi). assert (L : i < length cells). { pose proof (nth_error_bound _ _ _ Hi) as Q. rewrite combine_length, seq_length in Q. lia. }
    destruct (nth_error_lt cells i L) as (c' & Hc'). pose proof (nth_error_enum cells 0 i c' Hc') as Q. rewrite Hi in Q. cbn in Q. injection Q as -> ->. now split. }
  destruct Ho as (Ho & Lo). destruct (Hf c (nth_error_In _ _ Ho)) as (dofs & Hn & Hl & _). rewrite Hn. cbn [obind fst snd]. rewrite (nth_error_nth _ _ [] Hn).
  apply ofold_writes. intros k a Hk. apply in_seq in Hk.
  replace (vs * npoints / vs) with npoints by (rewrite Nat.mul_comm, Nat.div_mul; lia).
  replace (o * (vs * npoints) / vs) with (o * npoints) by (replace (o * (vs * npoints)) with (o * npoints * vs) by lia; rewrite Nat.div_mul; lia).
  rewrite (omap_map _ (fun j => point_values T zero f n1 npoints (j + k) o)).
  2:{ intros j Hj. apply in_seq in Hj. apply slice_values. rewrite Hlen. assert (j + k < n0) by (destruct Hor; nia). nia. }
  cbn [obind]. rewrite apply_dot.
  2:{ intros row Hr. rewrite (Hrow _ Hr). rewrite <- lsum_concat_length, map_map.
      rewrite (map_ext _ (fun _ => npoints)) by (intro; unfold point_values; now rewrite map_length, seq_length). rewrite map_const, lsum_repeat, seq_length. lia. }
  cbn [obind]. apply write_block_wr; [exact Hb|lia|exact Hl|]. apply Ht; [eapply nth_error_In; eauto|]. now rewrite map_length.
Qed.

(** ** Gathering and scattering the coefficients of a cell *)
Lemma gather_spec bs dofmap c dofs dim (array : list T) : nth_error dofmap c = Some dofs -> 0 < bs -> bs * length dofs = dim -> (forall d, In d dofs -> bs * d + bs <= length array) ->
  gather T zero bs dofs dim array = Some (cell_coefficients T zero bs dofmap dim array c).
Proof.
  intros Hn Hb Hl Hd. unfold gather. rewrite list_prod_seq by exact Hb. rewrite ofold_map.
  rewrite (ofold_writes _ (fun m => [(m, match cell_dof bs dofmap c m with Some a => nth a array zero | None => zero end)])).
  - rewrite concat_singles. rewrite wr_all.
    + unfold cell_coefficients. rewrite map_map. cbn [snd]. now rewrite Nat.mul_comm, Hl.
    + rewrite map_map. cbn [fst]. rewrite map_id, repeat_length. now rewrite Nat.mul_comm, Hl.
  - intros m arr Hm. apply in_seq in Hm. rewrite wr_one. rewrite (cell_dof_place bs dofmap c dofs) by (try assumption; nia).
    assert (Q : m / bs < length dofs) by (apply Nat.div_lt_upper_bound; lia).
    pose proof (Nat.mod_upper_bound m bs ltac:(lia)) as M. pose proof (Nat.div_mod m bs ltac:(lia)) as D.
    rewrite (nth_error_nth' dofs 0) by exact Q. cbn [obind]. unfold dof_place. specialize (Hd _ (nth_In dofs 0 Q)).
    rewrite (nth_error_nth' array zero) by lia. cbn [obind]. now rewrite <- D.
Qed.

Lemma nth_cell_coefficients bs dofmap dim array c m : m < dim ->
  nth m (cell_coefficients T zero bs dofmap dim array c) zero = match cell_dof bs dofmap c m with Some a => nth a array zero | None => zero end.
Proof.
  intro H. unfold cell_coefficients. apply nth_error_nth. rewrite nth_error_map_some, nth_error_seq by exact H. reflexivity.
Qed.

Lemma scatter_wr bs dofs (local : list T) array : 0 < bs -> length local = bs * length dofs ->
  scatter_local T bs dofs local array = wr (map (fun m => (dof_place bs dofs m, nth m local zero)) (seq 0 (bs * length dofs))) array.
Proof.
  intros Hb Hl. unfold scatter_local. rewrite list_prod_seq by exact Hb. rewrite ofold_map. rewrite (Nat.mul_comm (length dofs)).
  rewrite (ofold_writes _ (fun m => [(dof_place bs dofs m, nth m local zero)])); [now rewrite concat_singles|].
  intros m arr Hm. apply in_seq in Hm. rewrite wr_one. assert (Q : m / bs < length dofs) by (apply Nat.div_lt_upper_bound; lia).
  pose proof (Nat.div_mod m bs ltac:(lia)) as D. rewrite (nth_error_nth' dofs 0) by exact Q. cbn [obind]. rewrite <- D.
  rewrite (nth_error_nth' local zero) by lia. reflexivity.
Qed.

Lemma cell_values bs dofmap dim cells (lv : nat -> nat -> list T) array :
  dofmap_fits bs dofmap dim (length array) cells ->
  exists array', wr (concat (map (fun oc => map (fun m => (dof_place bs (nth (snd oc) dofmap []) m, nth m (lv (fst oc) (snd oc)) zero)) (seq 0 dim)) (combine (seq 0 (length cells)) cells))) array = Some array' /\
    written bs dofmap dim cells (fun o m => nth m (lv o (nth o cells 0)) zero) array array'.
Proof.
  intro Hf. apply (written_cells bs dofmap dim cells _ (fun o c => map (fun m => (dof_place bs (nth c dofmap []) m, nth m (lv o c) zero)) (seq 0 dim)) array Hf).
  - destruct Hf as (Hb & Hf). intros o c pv Ho Hin. apply in_map_iff in Hin as (m & <- & Hm). apply in_seq in Hm. exists m. split; [lia|].
    destruct (Hf c (nth_error_In _ _ Ho)) as (dofs & Hn & Hl & _). cbn [fst snd]. rewrite (nth_error_nth _ _ [] Hn), (nth_error_nth _ _ 0 Ho). split; [|reflexivity].
    apply cell_dof_place; [exact Hn|exact Hb|lia].
  - destruct Hf as (Hb & Hf). intros o c m a Ho Hm Ha. destruct (Hf c (nth_error_In _ _ Ho)) as (dofs & Hn & Hl & _).
    exists (nth m (lv o c) zero). apply in_map_iff. exists m. split; [|apply in_seq; lia]. rewrite (nth_error_nth _ _ [] Hn).
    rewrite (cell_dof_place bs dofmap c dofs) in Ha by (try assumption; lia). now injection Ha as <-.
Qed.

(** Loops over two lists of cells. *)
Lemma two_lists {A B} (l0 : list A) (l1 : list B) d : length l0 = length l1 ->
  combine l0 l1 = map (fun oc => (nth (fst oc) l0 d, snd oc)) (combine (seq 0 (length l1)) l1).
Proof.
  intro H. apply nth_error_ext. intro i. rewrite nth_error_map_some. destruct (Nat.lt_ge_cases i (length l1)) as [L|G].
  - destruct (nth_error_lt l1 i L) as (b & Hb). rewrite (nth_error_enum l1 0 i b Hb). cbn [option_map fst snd plus].
    destruct (nth_error_lt l0 i ltac:(lia)) as (a & Ha). rewrite (nth_error_nth _ _ d Ha).
    clear -Ha Hb. revert l1 i Ha Hb. induction l0 as [|x l0 IH]; intros [|y l1] [|i] Ha Hb; try discriminate; cbn in *; [congruence|]. now apply IH.
  - rewrite (proj2 (nth_error_None _ _)), (proj2 (nth_error_None _ _)); [reflexivity| |]; rewrite combine_length; rewrite ?seq_length; lia.
Qed.
Lemma enum_in (cells : list nat) o c : In (o, c) (combine (seq 0 (length cells)) cells) -> nth_error cells o = Some c.
Proof.
  intro Hin. apply In_nth_error in Hin as (i & Hi). assert (L : i < length cells). { pose proof (nth_error_bound _ _ _ Hi) as Q. rewrite combine_length, seq_length in Q. lia. }
  destruct (nth_error_lt cells i L) as (c' & Hc'). pose proof (nth_error_enum cells 0 i c' Hc') as Q. rewrite Hi in Q. cbn in Q. injection Q as -> ->. exact Hc'.
Qed.

Lemma copy_written bs0 bs1 dim dofmap0 dofmap1 cells0 cells1 (array0 array1 : list T) :
  length cells0 = length cells1 ->
  dofmap_fits bs0 dofmap0 dim (length array0) cells0 -> dofmap_fits bs1 dofmap1 dim (length array1) cells1 ->
  exists array', interpolate_copy T bs0 bs1 dofmap0 dofmap1 cells0 cells1 array0 array1 = Some array' /\
    written bs1 dofmap1 dim cells1 (fun o m => nth m (cell_coefficients T zero bs0 dofmap0 dim array0 (nth o cells0 0)) zero) array1 array'.
Proof.
  intros HL Hf0 Hf1.
  destruct (cell_values bs1 dofmap1 dim cells1 (fun o _ => cell_coefficients T zero bs0 dofmap0 dim array0 (nth o cells0 0)) array1 Hf1) as (array' & E & W).
  exists array'. split; [|exact W]. rewrite <- E. unfold interpolate_copy. rewrite HL, Nat.eqb_refl. cbn [negb orb].
  destruct Hf0 as (Hb0 & Hf0). destruct Hf1 as (Hb1 & Hf1). destruct (Nat.eqb_spec bs1 0) as [|_]; [lia|].
  rewrite (two_lists cells0 cells1 0 HL), ofold_map. apply ofold_writes. intros [o c1] arr Hin. apply enum_in in Hin. cbn [fst snd].
  assert (Lo : o < length cells0) by (rewrite HL; eapply nth_error_bound; eauto).
  destruct (Hf0 (nth o cells0 0) (nth_In _ _ Lo)) as (dofs0 & Hn0 & Hl0 & Hd0). destruct (Hf1 c1 (nth_error_In _ _ Hin)) as (dofs1 & Hn1 & Hl1 & Hd1).
  rewrite Hn0, Hn1. cbn [obind]. rewrite Hl0, Hl1, Nat.eqb_refl. cbn [negb]. rewrite list_prod_seq by exact Hb0. rewrite ofold_map.
  rewrite (Nat.mul_comm (length dofs0)), Hl0. rewrite (nth_error_nth _ _ [] Hn1).
  rewrite (ofold_writes _ (fun m => [(dof_place bs1 dofs1 m, nth m (cell_coefficients T zero bs0 dofmap0 dim array0 (nth o cells0 0)) zero)])); [now rewrite concat_singles|].
  intros m a Hm. apply in_seq in Hm. rewrite wr_one. assert (Q0 : m / bs0 < length dofs0) by (apply Nat.div_lt_upper_bound; lia). assert (Q1 : m / bs1 < length dofs1) by (apply Nat.div_lt_upper_bound; lia).
  pose proof (Nat.div_mod m bs0 ltac:(lia)) as D0. pose proof (Nat.mod_upper_bound m bs0 ltac:(lia)) as M0. rewrite <- D0.
  rewrite (nth_error_nth' dofs1 0) by exact Q1. cbn [obind]. rewrite (nth_error_nth' dofs0 0) by exact Q0. cbn [obind].
  specialize (Hd0 _ (nth_In dofs0 0 Q0)). rewrite (nth_error_nth' array0 zero) by lia. cbn [obind]. rewrite nth_cell_coefficients by lia.
  now rewrite (cell_dof_place bs0 dofmap0 _ dofs0) by (try assumption; lia).
Qed.

Lemma same_map_written bs0 bs1 dim0 dim1 im dofmap0 dofmap1 transform0 transform1 cells0 cells1 (array0 array1 : list T) :
  length cells0 = length cells1 ->
  dofmap_fits bs0 dofmap0 dim0 (length array0) cells0 -> dofmap_fits bs1 dofmap1 dim1 (length array1) cells1 ->
  length im = dim1 -> (forall row, In row im -> length row = dim0) ->
  (forall c vs, In c cells0 -> length vs = dim0 -> length (transform0 c vs) = dim0) ->
  (forall c vs, In c cells1 -> length vs = dim1 -> length (transform1 c vs) = dim1) ->
  exists array', interpolate_same_map T zero add mul bs0 bs1 dim0 im dofmap0 dofmap1 transform0 transform1 cells0 cells1 array0 array1 = Some array' /\
    written bs1 dofmap1 dim1 cells1
      (fun o m => nth m (transform1 (nth o cells1 0) (map (fun row => dot T zero add mul row (transform0 (nth o cells0 0) (cell_coefficients T zero bs0 dofmap0 dim0 array0 (nth o cells0 0)))) im)) zero)
      array1 array'.
Proof.
  intros HL Hf0 Hf1 Him Hrow Ht0 Ht1.
  destruct (cell_values bs1 dofmap1 dim1 cells1 (fun o c => transform1 c (map (fun row => dot T zero add mul row (transform0 (nth o cells0 0) (cell_coefficients T zero bs0 dofmap0 dim0 array0 (nth o cells0 0)))) im)) array1 Hf1) as (array' & E & W).
  exists array'. split; [|exact W]. rewrite <- E. unfold interpolate_same_map. rewrite HL, Nat.eqb_refl. cbn [negb].
  destruct Hf0 as (Hb0 & Hf0). destruct Hf1 as (Hb1 & Hf1).
  rewrite (two_lists cells0 cells1 0 HL), ofold_map. apply ofold_writes. intros [o c1] arr Hin. apply enum_in in Hin. cbn [fst snd].
  assert (Lo : o < length cells0) by (rewrite HL; eapply nth_error_bound; eauto).
  destruct (Hf0 (nth o cells0 0) (nth_In _ _ Lo)) as (dofs0 & Hn0 & Hl0 & Hd0). destruct (Hf1 c1 (nth_error_In _ _ Hin)) as (dofs1 & Hn1 & Hl1 & Hd1).
  rewrite Hn0. cbn [obind]. rewrite (gather_spec bs0 dofmap0 (nth o cells0 0) dofs0 dim0 array0 Hn0 Hb0 Hl0 Hd0). cbn [obind].
  assert (Lc : length (transform0 (nth o cells0 0) (cell_coefficients T zero bs0 dofmap0 dim0 array0 (nth o cells0 0))) = dim0).
  { apply Ht0; [now apply nth_In|]. unfold cell_coefficients. now rewrite map_length, seq_length. }
  rewrite apply_dot by (intros row Hr; rewrite Lc; now apply Hrow). cbn [obind]. rewrite Hn1. cbn [obind]. rewrite scatter_wr.
  - now rewrite (nth_error_nth _ _ [] Hn1), Hl1.
  - exact Hb1.
  - rewrite Hl1. apply Ht1; [eapply nth_error_In; eauto|]. now rewrite map_length.
Qed.
End Interp.
