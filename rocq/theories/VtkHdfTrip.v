(** Proofs about VTKHDF files: what is written is what is read. *)
From Coq Require Import Permutation.
From Verif Require Import Base BaseProofs Ranges CellTypes Cells CellsSpec CellsInverse Xdmf XdmfSpec XdmfProofs VtkHdf VtkHdfSpec VtkHdfWrite VtkHdfRead.
Open Scope nat_scope.

Lemma pick {X Y} (f : nat -> list Y) (l : list X) a i : a <= i -> i < a + length l -> concat (map (fun x => if fst x =? i then f (fst x) else []) (combine (seq a (length l)) l)) = f i.
Proof.
  revert a. induction l as [|x l IH]; intros a H1 H2; cbn [length] in H2; [lia|]. cbn [length seq combine map concat fst]. destruct (Nat.eqb_spec a i) as [->|N].
  - assert (E : concat (map (fun x => if fst x =? i then f (fst x) else []) (combine (seq (S i) (length l)) l)) = []); [|rewrite E; apply app_nil_r].
    clear. assert (H : forall b, i < b -> concat (map (fun x => if fst x =? i then f (fst x) else []) (combine (seq b (length l)) l)) = []); [|apply H; lia].
    induction l as [|y l IH]; intros b Hb; [reflexivity|]. cbn [length seq combine map concat fst]. destruct (Nat.eqb_spec b i); [lia|]. apply IH. lia.
  - cbn [app]. apply IH; lia.
Qed.
Lemma filter_all {X} (f : X -> bool) l b : (forall x, In x l -> f x = b) -> filter f l = if b then l else [].
Proof.
  intro H. induction l as [|x l IH]; [destruct b; reflexivity|]. cbn [filter]. rewrite (H x (or_introl eq_refl)), IH by (intros; apply H; now right). destruct b; reflexivity.
Qed.

Lemma seq_from a n : seq a n = map (Nat.add a) (seq 0 n).
Proof. revert a. induction n as [|n IH]; intro a; [reflexivity|]. cbn [seq map]. rewrite (IH (S a)), (IH 1), map_map, Nat.add_0_r. f_equal. apply map_ext. intro i. lia. Qed.

Section Cells.
Context {U : Type}.
Variables (P Q : nat) (size_local offset_g : nat -> nat) (ghosts : nat -> list nat).
Variables (types : list (cell_type * nat)) (num_cells : nat -> nat -> nat) (dofmap : nat -> nat -> list (list nat)).
Variables (order : list nat) (fill : nat -> nat) (fillx : nat -> U) (x : nat -> list U).
Hypothesis HQ : 0 < Q.
Hypothesis Hoff : forall r, r < P -> offset_g r = before size_local r.
Hypothesis Hfit : cells_fit P size_local ghosts types num_cells dofmap.
Hypothesis Htypes : forall i t nn, nth_error types i = Some (t, nn) -> exists d, readable t d nn.
Hypothesis Hdup : NoDup (map fst types).
Hypothesis Hsome : exists r i, r < P /\ i < length types /\ 0 < num_cells r i.
Definition G := gathered P (cells_of size_local ghosts types num_cells dofmap).
Notation cells_of := (cells_of size_local ghosts types num_cells dofmap).
Notation kind_of := (kind_of types).
Lemma G_in g : In g G <-> exists r, r < P /\ In g (cells_of r).
Proof.
  unfold G, gathered. rewrite in_concat. split.
  - intros (l & H1 & H2). apply in_map_iff in H1 as (r & <- & Hr). apply in_seq in Hr. exists r. split; [lia|exact H2].
  - intros (r & Hr & H). exists (cells_of r). split; [apply in_map_iff; exists r; split; [reflexivity|apply in_seq; lia]|exact H].
Qed.
Lemma G_types g : In g G -> exists t nn, nth_error types (fst g) = Some (t, nn) /\ length (snd g) = nn.
Proof. intro H. apply G_in in H as (r & Hr & H). exact (cells_in P size_local ghosts types num_cells dofmap Hfit r g Hr H). Qed.
Lemma cells_num r i row : r < P -> In (i, row) (cells_of r) -> 0 < num_cells r i.
Proof.
  intros Hr H. unfold VtkHdfWrite.cells_of in H. apply in_concat in H as (l & H1 & H2). apply in_map_iff in H1 as ([j tn] & <- & _). cbn [fst] in H2. apply in_map_iff in H2 as (row' & E & H2). injection E as -> _.
  destruct (num_cells r i); [destruct H2|lia].
Qed.
Lemma in_typed i tn : nth_error types i = Some tn -> In (i, tn) (typed types).
Proof.
  unfold typed. intro E. apply (nth_error_In _ i). assert (H : forall (l : list (cell_type * nat)) a, nth_error l i = Some tn -> nth_error (combine (seq a (length l)) l) i = Some (a + i, tn)); [|exact (H types 0 E)].
  clear. induction i as [|i IH]; intros [|y l] a E; try discriminate; cbn [length seq combine nth_error] in *; [injection E as ->; now rewrite Nat.add_0_r|]. rewrite (IH l (S a) E). do 2 f_equal. lia.
Qed.
Lemma num_cells_in r i : r < P -> i < length types -> 0 < num_cells r i -> exists row, In (i, row) (cells_of r).
Proof.
  intros Hr Hi H. destruct (nth_error_lt types i Hi) as ([t nn] & E). destruct (Hfit r i t nn Hr E) as (L & _ & _).
  destruct (dofmap r i) as [|row l] eqn:Ed; [cbn in L; lia|]. destruct (num_cells r i) as [|n] eqn:En; [lia|]. exists (map (global_of size_local ghosts r) row).
  unfold VtkHdfWrite.cells_of. apply in_concat. eexists. split; [apply in_map_iff; exists (i, (t, nn)); split; [reflexivity|exact (in_typed _ _ E)]|]. cbn [fst]. rewrite Ed, En, firstn_cons. cbn [map]. now left.
Qed.
Lemma G_pos : 0 < length G.
Proof.
  destruct Hsome as (r & i & Hr & Hi & H). destruct (num_cells_in r i Hr Hi H) as (row & Hin). destruct G eqn:E; [|cbn; lia]. exfalso. assert (H0 : In (i, row) G) by (apply G_in; now exists r). rewrite E in H0. destruct H0.
Qed.
Lemma kind_typed g t nn d : nth_error types (fst g) = Some (t, nn) -> readable t d nn -> kind_of g = (vtk_code t, d).
Proof. intros E R. unfold VtkHdfRead.kind_of, size_of, code_of. rewrite E. now rewrite (proj1 (readable_kind t d nn R)). Qed.
Lemma degree_unique t d d' nn : readable t d nn -> readable t d' nn -> d = d'.
Proof. intros R R'. pose proof (proj1 (readable_kind t d nn R)). pose proof (proj1 (readable_kind t d' nn R')). congruence. Qed.
Lemma code_inj t t' d d' nn nn' : readable t d nn -> readable t' d' nn' -> vtk_code t = vtk_code t' -> t = t'.
Proof. intros R R' E. pose proof (proj2 (readable_kind t d nn R)) as H. pose proof (proj2 (readable_kind t' d' nn' R')) as H'. rewrite E in H. congruence. Qed.
Lemma rows_of_concat k L : rows_of types k (concat L) = concat (map (rows_of types k) L).
Proof. induction L as [|l L IH]; [reflexivity|]. cbn [concat map]. now rewrite rows_of_app, IH. Qed.
Lemma rows_of_owned r i t nn d : r < P -> nth_error types i = Some (t, nn) -> readable t d nn -> rows_of types (vtk_code t, d) (cells_of r) = owned_cells size_local ghosts num_cells dofmap r i.
Proof.
  intros Hr E R. unfold VtkHdfWrite.cells_of. rewrite rows_of_concat, map_map. pose proof (nth_error_bound _ _ _ E) as Hi.
  rewrite <- (pick (owned_cells size_local ghosts num_cells dofmap r) types 0 i ltac:(lia) Hi). fold (typed types). f_equal. apply map_ext_in. intros [j [t' nn']] Hj. unfold typed in Hj. apply typed_in in Hj. cbn [fst].
  destruct (Htypes j t' nn' Hj) as (d' & R'). unfold rows_of. rewrite (filter_all _ _ (j =? i)).
  - destruct (j =? i); [|reflexivity]. unfold owned_cells. now rewrite map_map.
  - intros g Hg. apply in_map_iff in Hg as (row & <- & _). rewrite (kind_typed (j, map (global_of size_local ghosts r) row) t' nn' d' Hj R'). destruct (Nat.eqb_spec j i) as [->|N].
    + rewrite E in Hj. injection Hj as <- <-. apply same_kind_ok. now rewrite (degree_unique t d d' nn R R').
    + destruct (same_kind (vtk_code t', d') (vtk_code t, d)) eqn:Es; [|reflexivity]. apply same_kind_ok in Es. injection Es as Es _. pose proof (code_inj _ _ _ _ _ _ R' R Es) as ->. exfalso. apply N.
      apply (proj1 (NoDup_nth_error (map fst types)) Hdup); [rewrite map_length; exact (nth_error_bound _ _ _ Hj)|]. rewrite !nth_error_map, Hj, E. reflexivity.
Qed.
Lemma mesh_round_trip : Permutation order (seq 0 P) -> fill 0 = 0 -> (forall r, r < P -> size_local r * 3 <= length (x r)) ->
  exists F kinds cells, write_mesh size_local offset_g ghosts types num_cells dofmap P order fill fillx x = Some F /\ NoDup kinds /\
  (forall q, q < Q -> read_cells Q F q = Some (kinds, cells q) /\ length (cells q) = length kinds) /\
  (forall t d, In (t, d) kinds <-> exists i nn r, nth_error types i = Some (t, nn) /\ readable t d nn /\ r < P /\ 0 < num_cells r i) /\
  (forall k i t d nn, nth_error kinds k = Some (t, d) -> nth_error types i = Some (t, nn) ->
     gathered Q (fun q => nth k (cells q) []) = gathered P (fun r => owned_cells size_local ghosts num_cells dofmap r i)).
Proof.
  intros Ho Hf Hx. pose proof G_types as HG. pose proof G_pos as HN.
  exists (VtkHdfRead.F types G (gathered P (fun r => firstn (size_local r * 3) (x r)))), (map type_of (kinds types Q G)), (fun q => map (fun k => rows_of types k (part Q G q)) (kinds types Q G)).
  assert (Hk : forall k, In k (kinds types Q G) <-> exists i t nn d r, nth_error types i = Some (t, nn) /\ readable t d nn /\ r < P /\ 0 < num_cells r i /\ k = (vtk_code t, d)).
  { intro k. rewrite (kinds_in types Q G HQ HN). split.
    - intros ([i row] & Hin & <-). destruct (HG _ Hin) as (t & nn & E & _). cbn [fst] in E. destruct (Htypes _ _ _ E) as (d & R). apply G_in in Hin as (r & Hr & Hin). exists i, t, nn, d, r. split; [exact E|]. split; [exact R|]. split; [exact Hr|]. split; [exact (cells_num r i row Hr Hin)|]. exact (kind_typed (i, row) t nn d E R).
    - intros (i & t & nn & d & r & E & R & Hr & H & ->). destruct (num_cells_in r i Hr (nth_error_bound _ _ _ E) H) as (row & Hin). exists (i, row). split; [apply G_in; now exists r|exact (kind_typed (i, row) t nn d E R)]. }
  split; [exact (write_mesh_ok P size_local offset_g ghosts types num_cells dofmap Hoff Hfit Htypes order fill fillx x Ho Hf Hx)|]. split; [|split; [|split]].
  - assert (Hs : forall l, incl l (kinds types Q G) -> NoDup l -> NoDup (map type_of l)); [|apply Hs; [apply incl_refl|apply unique_nodup]].
    induction l as [|k l IH]; intros Hi Hn; [constructor|]. apply NoDup_cons_iff in Hn as [Hn1 Hn2]. cbn [map]. constructor; [|apply IH; [intros y Hy; apply Hi; now right|exact Hn2]].
    intro H. apply in_map_iff in H as (k' & E & Hin). apply Hn1. destruct (proj1 (Hk k) (Hi k (or_introl eq_refl))) as (i1 & t1 & nn1 & d1 & r1 & E1 & R1 & _ & _ & ->). destruct (proj1 (Hk k') (Hi k' (or_intror Hin))) as (i2 & t2 & nn2 & d2 & r2 & E2 & R2 & _ & _ & ->).
    rewrite (type_of_ok t1 d1 nn1 R1), (type_of_ok t2 d2 nn2 R2) in E. injection E as -> ->. exact Hin.
  - intros q Hq. split; [|now rewrite !map_length]. exact (read_cells_ok types Q G _ Htypes HG HQ HN q Hq).
  - intros t d. rewrite in_map_iff. split.
    + intros (k & E & Hin). apply Hk in Hin as (i & t' & nn & d' & r & E1 & R & Hr & H & ->). rewrite (type_of_ok t' d' nn R) in E. injection E as -> ->. now exists i, nn, r.
    + intros (i & nn & r & E & R & Hr & H). exists (vtk_code t, d). split; [exact (type_of_ok t d nn R)|]. apply Hk. now exists i, t, nn, d, r.
  - intros k i t d nn Ek Ei. rewrite nth_error_map in Ek. destruct (nth_error (kinds types Q G) k) as [kk|] eqn:E; [|discriminate]. cbn [option_map] in Ek. injection Ek as Ek.
    destruct (proj1 (Hk kk) (nth_error_In _ _ E)) as (i' & t' & nn' & d' & r' & E1 & R & _ & _ & ->). rewrite (type_of_ok t' d' nn' R) in Ek. injection Ek as -> ->.
    assert (i' = i) as -> by (apply (proj1 (NoDup_nth_error (map fst types)) Hdup); [rewrite map_length; exact (nth_error_bound _ _ _ E1)|rewrite !nth_error_map, E1, Ei; reflexivity]). assert (nn' = nn) as -> by congruence.
    transitivity (gathered Q (fun q => rows_of types (vtk_code t, d) (part Q G q))).
    + unfold gathered. f_equal. apply map_ext. intro q. apply nth_error_nth. rewrite nth_error_map, E. reflexivity.
    + rewrite (read_all types Q G HQ HN). unfold G, gathered at 1. rewrite rows_of_concat, map_map. unfold gathered. f_equal. apply map_ext_in. intros r Hr. apply in_seq in Hr. apply (rows_of_owned r i t nn d); [lia|exact Ei|exact R].
Qed.

(** ** Points *)
Definition rows3 (gdim n : nat) (l : list U) : list U := concat (map (fun i => firstn gdim (skipn (3 * i) l)) (seq 0 n)).
Lemma rows3_app gdim n m l1 l2 : gdim <= 3 -> length l1 = 3 * n -> rows3 gdim (n + m) (l1 ++ l2) = rows3 gdim n l1 ++ rows3 gdim m l2.
Proof.
  intros Hg L. unfold rows3. rewrite seq_app, map_app, concat_app. f_equal.
  - f_equal. apply map_ext_in. intros i Hi. apply in_seq in Hi. rewrite skipn_app, firstn_app, skipn_length. replace (gdim - (length l1 - 3 * i)) with 0 by lia. cbn [firstn]. apply app_nil_r.
  - f_equal. rewrite Nat.add_0_l, (seq_from n m). rewrite map_map. apply map_ext. intro i. rewrite skipn_app. replace (3 * (n + i) - length l1) with (3 * i) by lia. rewrite (skipn_all2 l1) by lia. reflexivity.
Qed.
Lemma rows3_gathered gdim p : gdim <= 3 -> (forall r, r < p -> size_local r * 3 <= length (x r)) ->
  rows3 gdim (before size_local p) (gathered p (fun r => firstn (size_local r * 3) (x r))) = gathered p (owned_points gdim size_local x) /\ length (gathered p (fun r => firstn (size_local r * 3) (x r))) = 3 * before size_local p.
Proof.
  intro Hg. induction p as [|p IH]; intro Hx; [now split|]. destruct IH as [IH1 IH2]; [intros; apply Hx; lia|]. rewrite !gathered_S, before_S. specialize (Hx p ltac:(lia)). split.
  - rewrite rows3_app, IH1 by assumption. f_equal. unfold owned_points. fold (rows3 gdim (size_local p) (x p)). rewrite <- (firstn_skipn (size_local p * 3) (x p)) at 2. rewrite <- (Nat.add_0_r (size_local p)) at 3.
    rewrite rows3_app by (rewrite ?firstn_length; lia). unfold rows3 at 3. cbn [seq map concat]. now rewrite app_nil_r.
  - rewrite app_length, IH2, firstn_length. lia.
Qed.
Lemma points_round_trip F gdim : Permutation order (seq 0 P) -> fill 0 = 0 -> (forall r, r < P -> size_local r * 3 <= length (x r)) -> gdim <= 3 -> 0 < before size_local P ->
  write_mesh size_local offset_g ghosts types num_cells dofmap P order fill fillx x = Some F ->
  exists new, (forall q, q < Q -> read_points Q F (before size_local P) gdim q = Some (new q)) /\ gathered Q new = gathered P (owned_points gdim size_local x).
Proof.
  intros Ho Hf Hx Hg HN E. rewrite (write_mesh_ok P size_local offset_g ghosts types num_cells dofmap Hoff Hfit Htypes order fill fillx x Ho Hf Hx) in E. injection E as <-.
  destruct (rows3_gathered gdim P Hg Hx) as [E1 E2]. set (N := before size_local P) in *. set (l := gathered P (fun r => firstn (size_local r * 3) (x r))) in *.
  assert (LS : length (seq 0 N) = N * 1) by (rewrite seq_length; lia).
  exists (fun q => concat (map (fun i => firstn gdim (skipn (3 * i) l)) (seq (rlo Q N q) (rhi Q N q - rlo Q N q)))). split.
  - intros q Hq. destruct (ranges_bound Q N 1 (seq 0 N) HQ HN LS q Hq) as [H1 H2]. unfold read_points. cbn [v_points].
    destruct (local_range (Z.of_nat q) (Z.of_nat N) (Z.of_nat Q)) as [a b] eqn:E. assert (Ha : Z.to_nat a = rlo Q N q) by (unfold rlo; now rewrite E). assert (Hb : Z.to_nat b = rhi Q N q) by (unfold rhi; now rewrite E). rewrite Ha, Hb.
    rewrite (proj2 (slice_some l (rlo Q N q * 3) (rhi Q N q * 3) (firstn (rhi Q N q * 3 - rlo Q N q * 3) (skipn (rlo Q N q * 3) l)))) by (split; [lia|]; split; [lia|reflexivity]). cbn [obind].
    destruct (Nat.ltb_spec 3 gdim); [lia|]. rewrite (omap_map _ (fun i => firstn gdim (skipn (3 * (rlo Q N q + i)) l))).
    + cbn [obind]. do 2 f_equal. rewrite (seq_from (rlo Q N q)), map_map. reflexivity.
    + intros i Hi. apply in_seq in Hi. apply slice_some. split; [lia|]. rewrite firstn_length, skipn_length. split; [lia|]. replace (i * 3 + gdim - i * 3) with gdim by lia.
      rewrite skipn_firstn_comm, firstn_firstn, Nat.min_l by lia. rewrite skipn_twice. f_equal. f_equal. lia.
  - rewrite <- E1. rewrite gathered_concat. unfold rows3. f_equal. f_equal. apply (read_gathered Q N 1 (seq 0 N) HQ HN LS). intros q Hq. destruct (ranges_bound Q N 1 (seq 0 N) HQ HN LS q Hq) as [H1 H2]. rewrite seq_length. split; [lia|]. intros m Hm. rewrite !nth_error_seq by lia. f_equal. lia.
Qed.
End Cells.
