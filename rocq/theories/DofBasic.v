(** The dofmap before renumbering: dofs of cells, entities and old global numbers of dofs. *)
From Verif Require Import Base BaseProofs BucketProofs Algo AlgoProofs CellTypes IndexMap IndexMapSpec IndexMapProofs OrientProofs DofBuilder DofSpec DofReq DofCells.
Open Scope nat_scope.

Lemma nth_combine {A B} (a : list A) (b : list B) i x y : nth_error a i = Some x -> nth_error b i = Some y -> nth_error (combine a b) i = Some (x, y).
Proof. revert b i. induction a as [|u a IH]; intros [|w b] [|i] H1 H2; cbn in *; try discriminate; [congruence|eauto]. Qed.

Lemma concat_uniform {A} n (L : list (list A)) e m j : (forall l, In l L -> length l = n) -> nth_error L e = Some m -> j < n ->
  nth_error (concat L) (n * e + j) = nth_error m j.
Proof.
  revert e. induction L as [|l t IH]; intros e HL He Hj; [destruct e; discriminate|]. cbn [concat]. destruct e as [|e]; cbn [nth_error] in He.
  - injection He as <-. rewrite Nat.mul_0_r, nth_error_app1; [reflexivity|]. rewrite (HL l (or_introl eq_refl)). exact Hj.
  - pose proof (HL l (or_introl eq_refl)) as Hl. rewrite nth_error_app2 by nia. rewrite Hl. replace (n * S e + j - n) with (n * e + j) by nia.
    apply IH; [intros; apply HL; now right|exact He|exact Hj].
Qed.
Lemma concat_uniform_len {A} n (L : list (list A)) : (forall l, In l L -> length l = n) -> length (concat L) = n * length L.
Proof. induction L as [|l t IH]; intros H; cbn [concat length]; [lia|]. rewrite app_length, IH, (H l); [nia|now left|intros; apply H; now right]. Qed.

Lemma sum_index l i : i < lsum l -> exists k c, nth_error l k = Some c /\ lsum (firstn k l) <= i < lsum (firstn k l) + c.
Proof.
  revert i. induction l as [|x t IH]; intros i; [rewrite lsum_nil; lia|]. rewrite lsum_cons. intros H. destruct (lt_dec i x) as [L|L].
  - exists 0, x. cbn. rewrite lsum_nil. split; [reflexivity|lia].
  - destruct (IH (i - x)) as (k & c & E & B); [lia|]. exists (S k), c. cbn [nth_error firstn]. rewrite lsum_cons. split; [exact E|lia].
Qed.
Lemma nm_inj n x j x' j' : j < n -> j' < n -> n * x + j = n * x' + j' -> x = x' /\ j = j'.
Proof. intros H1 H2 E. assert (x = x') by nia. subst. split; [reflexivity|lia]. Qed.

Lemma globals_len m : length (global_indices m) = map_size m.
Proof. unfold global_indices, map_size, num_ghosts. rewrite app_length, seq_length. reflexivity. Qed.
Lemma globals_nth m x : nth_error (global_indices m) x = local_to_global m x.
Proof.
  unfold global_indices, local_to_global. destruct (Nat.ltb_spec x (size_local m)).
  - rewrite nth_error_app1 by (rewrite seq_length; lia). now rewrite nth_error_seq.
  - rewrite nth_error_app2 by (rewrite seq_length; lia). now rewrite seq_length.
Qed.

Section N.
Variables (tp : topo) (rq : list req).
Definition total : nat := lsum (map (req_size tp) rq).
Definition goff_at (k : nat) : nat := lsum (firstn k (map (fun r => snd r * im_size_global (req_map tp r)) rq)).

Lemma ents_blocks : map (@length _) (map (fun kr : nat * req => concat (map (fun e => repeat (fst kr, e) (snd (snd kr))) (seq 0 (length (global_indices (req_map tp (snd kr))))))) (combine (seq 0 (length rq)) rq)) = map (req_size tp) rq.
Proof.
  rewrite map_map. set (F := fun kr : nat * req => length _).
  assert (HF : forall a r, F (a, r) = req_size tp r).
  { intros a r. unfold F. cbn [fst snd]. rewrite (concat_uniform_len (snd r)).
    - rewrite map_length, seq_length, globals_len. reflexivity.
    - intros l Hl. apply in_map_iff in Hl as (e & <- & _). apply repeat_length. }
  clearbody F. generalize 0 as a. induction rq as [|r t IH]; intros a; [reflexivity|]. cbn [length seq combine map]. now rewrite IH, HF.
Qed.
Lemma olds_blocks : forall goff, length rq <= length goff -> map (@length _) (map (fun ro : req * nat => concat (map (fun g => map (fun count => snd ro + snd (fst ro) * g + count) (seq 0 (snd (fst ro)))) (global_indices (req_map tp (fst ro))))) (combine rq goff)) = map (req_size tp) rq.
Proof.
  intros goff. rewrite map_map. revert goff. induction rq as [|r t IH]; intros goff H; [reflexivity|]. destruct goff as [|g goff]; [cbn in H; lia|]. cbn [combine map fst snd].
  rewrite IH by (cbn in H; lia). f_equal. rewrite (concat_uniform_len (snd r)).
  - rewrite map_length, globals_len. reflexivity.
  - intros l Hl. apply in_map_iff in Hl as (e & <- & _). now rewrite map_length, seq_length.
Qed.

Lemma dof_entities_len : length (dof_entities tp rq) = total.
Proof. unfold dof_entities. rewrite <- lsum_concat_length, ents_blocks. reflexivity. Qed.
Lemma old_globals_len : length (old_globals tp rq) = total.
Proof. unfold old_globals. rewrite <- lsum_concat_length, olds_blocks; [reflexivity|]. rewrite psums_length, map_length. lia. Qed.

Lemma dof_lt k r x j : nth_error rq k = Some r -> x < map_size (req_map tp r) -> j < snd r -> snd r * x + j < req_size tp r.
Proof. intros _ Hx Hj. unfold req_size. change (tp_map tp (fst (fst r)) (snd (fst r))) with (req_map tp r). nia. Qed.
Lemma dof_total k r x j : nth_error rq k = Some r -> x < map_size (req_map tp r) -> j < snd r -> off_at tp rq k + snd r * x + j < total.
Proof.
  intros Hk Hx Hj. pose proof (dof_lt k r x j Hk Hx Hj) as B. unfold total, off_at. pose proof (lsum_firstn_le (map (req_size tp) rq) (S k)) as L.
  rewrite (lsum_firstn_S _ _ (req_size tp r)) in L by (rewrite nth_error_map_some, Hk; reflexivity). lia.
Qed.

Lemma dof_entities_nth k r x j : nth_error rq k = Some r -> x < map_size (req_map tp r) -> j < snd r ->
  nth_error (dof_entities tp rq) (off_at tp rq k + snd r * x + j) = Some (k, x).
Proof.
  intros Hk Hx Hj. unfold dof_entities. set (L := map _ (combine _ _)).
  assert (E : nth_error L k = Some (concat (map (fun e => repeat (k, e) (snd r)) (seq 0 (map_size (req_map tp r)))))).
  { unfold L. rewrite nth_error_map_some, (nth_combine _ _ _ k r); [cbn [option_map fst snd]; now rewrite globals_len| |exact Hk].
    rewrite nth_error_seq by (eapply nth_error_bound; eauto). reflexivity. }
  rewrite <- Nat.add_assoc. unfold off_at. rewrite <- ents_blocks. fold L. rewrite (nth_error_concat L k _ _ E).
  - rewrite (concat_uniform (snd r) _ x (repeat (k, x) (snd r))).
    + now apply nth_error_repeat.
    + intros l Hl. apply in_map_iff in Hl as (e & <- & _). apply repeat_length.
    + rewrite nth_error_map_some, nth_error_seq by exact Hx. reflexivity.
    + exact Hj.
  - rewrite (concat_uniform_len (snd r)); [rewrite map_length, seq_length; nia|]. intros l Hl. apply in_map_iff in Hl as (e & <- & _). apply repeat_length.
Qed.
Lemma old_globals_nth k r x j g : nth_error rq k = Some r -> local_to_global (req_map tp r) x = Some g -> j < snd r ->
  nth_error (old_globals tp rq) (off_at tp rq k + snd r * x + j) = Some (goff_at k + snd r * g + j).
Proof.
  intros Hk Hg Hj. unfold old_globals. rewrite <- globals_nth in Hg. set (L := map _ (combine _ _)). pose proof (nth_error_bound _ _ _ Hg) as Hx. rewrite globals_len in Hx.
  assert (E : nth_error L k = Some (concat (map (fun g => map (fun count => goff_at k + snd r * g + count) (seq 0 (snd r))) (global_indices (req_map tp r))))).
  { unfold L. rewrite nth_error_map_some, (nth_combine _ _ _ r (goff_at k)); [reflexivity|exact Hk|].
    rewrite psums_nth; [reflexivity|]. rewrite map_length. pose proof (nth_error_bound _ _ _ Hk). lia. }
  rewrite <- Nat.add_assoc. unfold off_at. rewrite <- (olds_blocks (psums (map (fun r => snd r * im_size_global (req_map tp r)) rq))) by (rewrite psums_length, map_length; lia).
  fold L. rewrite (nth_error_concat L k _ _ E).
  - rewrite (concat_uniform (snd r) _ x (map (fun count => goff_at k + snd r * g + count) (seq 0 (snd r)))).
    + rewrite nth_error_map_some, nth_error_seq by exact Hj. reflexivity.
    + intros l Hl. apply in_map_iff in Hl as (e & <- & _). now rewrite map_length, seq_length.
    + rewrite nth_error_map_some, Hg. reflexivity.
    + exact Hj.
  - rewrite (concat_uniform_len (snd r)); [rewrite map_length, globals_len; nia|]. intros l Hl. apply in_map_iff in Hl as (e & <- & _). now rewrite map_length, seq_length.
Qed.
Lemma dof_index i : i < total -> exists k r x j, nth_error rq k = Some r /\ x < map_size (req_map tp r) /\ j < snd r /\ i = off_at tp rq k + snd r * x + j.
Proof.
  intros H. apply sum_index in H as (k & c & E & B). rewrite nth_error_map_some in E. destruct (nth_error rq k) as [r|] eqn:Er; [|discriminate]. cbn in E. injection E as <-.
  set (o := lsum (firstn k (map (req_size tp) rq))) in *. change (req_size tp r) with (snd r * map_size (req_map tp r)) in B. assert (Hn : snd r <> 0) by nia.
  exists k, r, ((i - o) / snd r), ((i - o) mod snd r). split; [exact Er|].
  pose proof (Nat.div_mod (i - o) (snd r) Hn) as E. pose proof (Nat.mod_upper_bound (i - o) (snd r) Hn) as M. split; [|split; [exact M|]].
  - apply Nat.div_lt_upper_bound; [exact Hn|lia].
  - unfold off_at. fold o. lia.
Qed.
Lemma dof_inj k r x j k' r' x' j' : nth_error rq k = Some r -> x < map_size (req_map tp r) -> j < snd r ->
  nth_error rq k' = Some r' -> x' < map_size (req_map tp r') -> j' < snd r' ->
  off_at tp rq k + snd r * x + j = off_at tp rq k' + snd r' * x' + j' -> k = k' /\ x = x' /\ j = j'.
Proof.
  intros Hk Hx Hj Hk' Hx' Hj' E. pose proof (dof_lt _ _ _ _ Hk Hx Hj) as B. pose proof (dof_lt _ _ _ _ Hk' Hx' Hj') as B'. unfold off_at in E.
  assert (M : nth_error (map (req_size tp) rq) k = Some (req_size tp r)) by (rewrite nth_error_map_some, Hk; reflexivity).
  assert (M' : nth_error (map (req_size tp) rq) k' = Some (req_size tp r')) by (rewrite nth_error_map_some, Hk'; reflexivity).
  destruct (Nat.lt_trichotomy k k') as [L|[<-|L]].
  - pose proof (off_disjoint _ _ _ _ L M). lia.
  - split; [reflexivity|]. rewrite Hk in Hk'. injection Hk' as <-. apply (nm_inj (snd r)); [exact Hj|exact Hj'|lia].
  - pose proof (off_disjoint _ _ _ _ L M'). lia.
Qed.
End N.

Section C.
Variables (tp : topo) (lys : list layout) (rq : list req).
Hypothesis Hok : tp_ok tp lys.
Hypothesis Hrq : rq_ok tp lys rq.
Let D := tp_dim tp.

(** A slot and the number of its dof *)
Lemma slot_req i c p d t x j : slot tp lys i c p d t x j -> c < map_size (tp_map tp D i) ->
  exists k et n, nth_error rq k = Some ((d, et), n) /\ nth_error (tp_types tp d) et = Some t /\ j < n /\ x < map_size (tp_map tp d et).
Proof.
  intros (e & ds & Hon & Hj & Ha) Hc. assert (Hne : ds <> []) by (intros ->; destruct j; discriminate).
  destruct (In_nth_error _ _ (tk_known _ _ Hok _ _ _ _ _ Hon Hne)) as (et & Ht).
  assert (Hin : In ((d, et), length ds) rq). { apply (proj2 Hrq). split; [destruct ds; [congruence|cbn; lia]|]. exists i, e, t, ds. auto. }
  destruct (In_nth_error _ _ Hin) as (k & Ek). exists k, et, (length ds). split; [exact Ek|]. split; [exact Ht|]. split; [eapply nth_error_bound; eauto|].
  pose proof (on_dim _ _ Hok _ _ _ _ _ Hon) as Hd. unfold attached in Ha. fold D in Ha, Hd. destruct (Nat.eqb_spec d D) as [->|N].
  - subst x. destruct Hon as (ct & ly & eds & E1 & E2 & E3 & E4 & E5). fold D in E1.
    pose proof (top_type tp lys Hok i ct E1 e) as TT. fold D in TT. rewrite TT in E5. assert (et = i) as -> by (eapply NoDup_nth_error_inj; [apply (tk_types _ _ Hok D); lia| |]; [exact Ht|congruence]). exact Hc.
  - destruct Ha as (ct & et' & links & row & A1 & A2 & A3 & A4 & A5). assert (et' = et) as -> by (eapply NoDup_nth_error_inj; [apply (tk_types _ _ Hok d Hd)| |]; eauto).
    assert (L : d < tp_dim tp) by (fold D; lia). destruct (tk_links _ _ Hok i ct d et t links L A1 A2 A3) as (_ & L2).
    destruct Hon as (ct' & ly & eds & E1 & E2 & E3 & E4 & E5). fold D in E1. rewrite A1 in E1. injection E1 as <-. destruct (tk_shape _ _ Hok i ct ly A1 E2) as (_ & S2 & _).
    destruct (L2 row _ (nth_error_In _ _ A4) (S2 _ _ E3)) as (_ & L3). apply L3. eapply nth_error_In; eauto.
Qed.

Theorem cell_dofs_ok : exists dofs, cell_dofs tp lys rq = Some dofs /\ length dofs = length lys /\
  (forall i ly rows, nth_error lys i = Some ly -> nth_error dofs i = Some rows -> length rows = map_size (tp_map tp D i) /\ forall row, In row rows -> length row = ly_num ly) /\
  (forall i c p d t x j k et n, slot tp lys i c p d t x j -> c < map_size (tp_map tp D i) -> nth_error rq k = Some ((d, et), n) -> nth_error (tp_types tp d) et = Some t ->
     dof_at dofs i c p (off_at tp rq k + n * x + j)).
Proof.
  unfold cell_dofs. fold D.
  destruct (omap_some (fun i => ct <- nth_error (tp_types tp D) i ;; ly <- nth_error lys i ;; omap (fill_cell tp i ct ly rq) (seq 0 (map_size (tp_map tp D i)))) (seq 0 (length (tp_types tp D)))) as (dofs & E).
  { intros i Hi. apply in_seq in Hi. destruct (nth_error_lt (tp_types tp D) i) as (ct & E1); [lia|]. destruct (nth_error_lt lys i) as (ly & E2); [rewrite (tk_layouts _ _ Hok); fold D; lia|].
    rewrite E1, E2. cbn [obind]. apply omap_some. intros c Hc. apply in_seq in Hc. destruct (fill_cell_ok tp lys rq Hok Hrq i ct ly E1 E2 c) as (row & Er & _); [fold D; lia|eauto]. }
  exists dofs. split; [exact E|]. pose proof (omap_len _ _ _ E) as Hl. rewrite seq_length in Hl. split; [rewrite Hl, (tk_layouts _ _ Hok); reflexivity|].
  assert (Hi : forall i rows, nth_error dofs i = Some rows -> exists ct ly, nth_error (tp_types tp D) i = Some ct /\ nth_error lys i = Some ly /\ omap (fill_cell tp i ct ly rq) (seq 0 (map_size (tp_map tp D i))) = Some rows).
  { intros i rows Hr. pose proof (omap_nth _ _ _ i E) as En. rewrite nth_error_seq in En by (rewrite <- Hl; eapply nth_error_bound; eauto). cbn [obind Nat.add] in En. rewrite Hr in En.
    destruct (nth_error (tp_types tp D) i) as [ct|]; [|discriminate]. destruct (nth_error lys i) as [ly|]; [|discriminate]. cbn [obind] in En. exists ct, ly. auto. }
  split.
  - intros i ly rows Ey Hr. destruct (Hi i rows Hr) as (ct & ly' & E1 & E2 & E3). rewrite Ey in E2. injection E2 as <-. pose proof (omap_len _ _ _ E3) as L3. rewrite seq_length in L3. split; [exact L3|].
    intros row Hin. apply In_nth_error in Hin as (c & Hc). pose proof (omap_nth _ _ _ c E3) as En. pose proof (nth_error_bound _ _ _ Hc) as Bc. rewrite nth_error_seq in En by lia. cbn [obind Nat.add] in En. rewrite Hc in En.
    destruct (fill_cell_ok tp lys rq Hok Hrq i ct ly E1 Ey c) as (row' & Er & El & _); [fold D; lia|]. congruence.
  - intros i c p d t x j k et n (e & ds & Hon & Hj & Ha) Hc Hk Ht.
    assert (Hon' := Hon). destruct Hon' as (ct & ly & eds & E1 & E2 & _). fold D in E1. destruct (nth_error_lt dofs i) as (rows & Er); [rewrite Hl; eapply nth_error_bound; eauto|].
    destruct (Hi i rows Er) as (ct' & ly' & F1 & F2 & F3). rewrite E1 in F1. injection F1 as <-. rewrite E2 in F2. injection F2 as <-.
    destruct (fill_cell_ok tp lys rq Hok Hrq i ct ly E1 E2 c Hc) as (row & G1 & G2 & G3). exists rows, row. split; [exact Er|]. split.
    + pose proof (omap_nth _ _ _ c F3) as En. rewrite nth_error_seq in En by exact Hc. cbn [obind Nat.add] in En. congruence.
    + eapply G3; eauto.
Qed.
End C.
