(** Proofs about XDMF files: meshes, tags and functions, for properties C86 and C87. *)
From Coq Require Import Permutation Sorted.
From Verif Require Import Base BaseProofs Ranges RangesProofs CellTypes Cells CellsSpec CellsInverse PlazaOrder Xdmf XdmfSpec XdmfProofs.
Open Scope nat_scope.

(** ** Meshes *)
Lemma node_index_global size_local ghosts r n : n < size_local r + length (ghosts r) ->
  exists g, node_index size_local (before size_local) ghosts r n = Some g /\ global_node size_local ghosts r n g.
Proof.
  intro H. unfold node_index, global_node. destruct (Nat.ltb_spec n (size_local r)) as [H1|H1]; [eexists; split; [reflexivity|left; now split]|].
  destruct (nth_error_lt (ghosts r) (n - size_local r) ltac:(lia)) as (g & E). exists g. rewrite E. split; [reflexivity|]. right. now split.
Qed.
Lemma mesh_statement {U} (zero : U) P Q order fill fillx size_local ghosts x_dofmap num_cells t deg nn gdim x :
  0 < Q -> Permutation order (seq 0 P) -> 1 <= gdim <= 3 -> 0 < nn -> lagrange_nodes t deg (Z.of_nat nn) -> (1 <= deg)%Z -> (Z.of_nat nn <= 65536)%Z ->
  0 < before num_cells P -> 0 < before size_local P ->
  (forall r c, r < P -> c < num_cells r -> nodes_fit size_local ghosts x nn (fun r c => nth_error (x_dofmap r) c) r c) ->
  (forall r, r < P -> length (x r) = 3 * (size_local r + length (ghosts r))) -> ghosts_agree P size_local ghosts x ->
  let width := if gdim =? 1 then 2 else gdim in
  exists FT FX T G,
    add_topology_data size_local (before size_local) ghosts P order fill (entity_nodes x_dofmap true (fun _ => []) (fun _ => []) []) t nn (fun r => seq 0 (num_cells r)) = Some FT /\
    add_geometry_data size_local zero P order fillx (before size_local P) gdim x = Some FX /\
    (forall q, q < Q -> read_topology_data t q Q (before num_cells P) nn FT = Some (T q)) /\
    (forall q, q < Q -> read_geometry_data q Q (before size_local P) width FX = Some (G q)) /\
    length (gathered Q T) = before num_cells P * nn /\ length (gathered Q G) = before size_local P * width /\
    (forall r i k, r < P -> i < size_local r -> k < width -> nth_error (gathered Q G) ((before size_local r + i) * width + k) = coordinate zero gdim (x r) i k) /\
    forall r c nodes i n, r < P -> c < num_cells r -> nth_error (x_dofmap r) c = Some nodes -> nth_error nodes i = Some n ->
      exists g, global_node size_local ghosts r n g /\ nth_error (gathered Q T) ((before num_cells r + c) * nn + i) = Some g /\
        forall k, k < width -> nth_error (gathered Q G) (g * width + k) = coordinate zero gdim (x r) n k.
Proof.
  intros HQ Hp Hg Hnn Ht Hdeg Hwide HNc HNx Hfit Hx Hag width.
  assert (Eb : forall r, before (fun r => length (seq 0 (num_cells r))) r = before num_cells r) by (intro r; apply before_ext; intros; apply seq_length).
  destruct (topology_round_trip P size_local (before size_local) ghosts (entity_nodes x_dofmap true (fun _ => []) (fun _ => []) []) t deg nn (fun r => seq 0 (num_cells r)) Hnn Ht Hdeg Hwide) with (Q := Q) (order := order) (fill := fill)
    as (FT & T & E1 & R1 & L1 & V1); [|exact HQ|now rewrite Eb|exact Hp|].
  { intros r e Hr He. apply in_seq in He. destruct (Hfit r e Hr ltac:(lia)) as (_ & H). exact H. }
  destruct (geometry_round_trip zero P size_local gdim x Hg) with (Q := Q) (order := order) (fill := fillx) as (FX & G & E2 & R2 & L2 & V2); [intros r Hr; rewrite Hx by exact Hr; lia|exact HQ|exact HNx|exact Hp|].
  fold width in R2, L2, V2. rewrite Eb in R1, L1. exists FT, FX, T, G. split; [assumption|]. split; [assumption|]. split; [intros q Hq; apply R1; exact Hq|]. repeat (split; [assumption|]). intros r c nodes i n Hr Hc En Ei.
  destruct (Hfit r c Hr Hc) as (_ & ns & En' & Ln & Hns). rewrite En in En'. injection En' as <-. pose proof (Hns n (nth_error_In _ _ Ei)) as Hn.
  destruct (node_index_global size_local ghosts r n Hn) as (g & Eg & Gg). exists g. split; [exact Gg|]. split.
  - rewrite <- Eg, <- (V1 r c c i nodes n Hr); [now rewrite Eb|now rewrite nth_error_seq by exact Hc|exact En|exact Ei].
  - intros k Hk. destruct Gg as [[H1 ->]|[H1 H2]]; [now apply V2|]. destruct (Hag r (n - size_local r) g Hr H2) as (o & j & Ho & Hj & -> & Hc'). rewrite (V2 o j k Ho Hj Hk).
    unfold coordinate. destruct (Nat.ltb_spec k gdim) as [H3|H3]; [|reflexivity]. rewrite <- Hc' by lia. f_equal. lia.
Qed.

(** ** Tags *)
Lemma find_index_nodup es k (e : nat) : NoDup es -> nth_error es k = Some e -> find_index (Nat.eqb e) es = Some k.
Proof.
  revert k. induction es as [|a es IH]; intros [|k] Hn E; try discriminate; cbn [find_index nth_error] in *.
  - injection E as ->. now rewrite Nat.eqb_refl.
  - inversion Hn as [|? ? H1 H2]; subst. destruct (Nat.eqb_spec e a) as [->|N]; [exfalso; apply H1; exact (nth_error_In _ _ E)|]. now rewrite (IH k H2 E).
Qed.
Lemma closure_entity x_dofmap e_to_c c_to_e entity_dofs r e ns : closure_nodes (e_to_c r) (c_to_e r) entity_dofs (x_dofmap r) e ns ->
  entity_nodes x_dofmap false e_to_c c_to_e entity_dofs r e = Some ns.
Proof.
  intros (c & cells & es & k & dofs & xdofs & E1 & E2 & Hn & E3 & E4 & E5 & L & H). unfold entity_nodes. rewrite E1. cbn [obind nth_error]. rewrite E2. cbn [obind].
  rewrite (find_index_nodup es k e Hn E3). cbn [obind]. rewrite E4. cbn [obind]. rewrite E5. cbn [obind].
  rewrite (omap_map _ (fun d => nth d xdofs 0)).
  - f_equal. apply nth_error_ext. intro i. rewrite nth_error_map. destruct (nth_error dofs i) as [d|] eqn:Ed; cbn [option_map].
    + destruct (H i d Ed) as [H1 ->]. symmetry. now apply nth_error_nth'.
    + symmetry. apply nth_error_None. apply nth_error_None in Ed. lia.
  - intros d Hd. apply In_nth_error in Hd as (i & Ed). apply nth_error_nth', (H i d Ed).
Qed.
(** The tags of owned entities come first. *)
Lemma sorted_filter m l : StronglySorted lt l -> filter (fun e => e <? m) l = firstn (length (filter (fun e => e <? m) l)) l.
Proof.
  induction 1 as [|a l Hs IH Ha]; [reflexivity|]. cbn [filter]. destruct (Nat.ltb_spec a m) as [H|H]; [cbn [length firstn]; now rewrite <- IH|].
  replace (filter (fun e => e <? m) l) with (@nil nat); [reflexivity|]. clear IH Hs. induction Ha as [|b l Hb Hl IH]; [reflexivity|]. cbn [filter]. rewrite (proj2 (Nat.ltb_ge b m)) by lia. exact IH.
Qed.
Lemma meshtags_statement {V} P Q order fill (fillv : nat -> V) size_local ghosts x_dofmap e_to_c c_to_e entity_dofs t deg nn num_owned indices values :
  0 < Q -> Permutation order (seq 0 P) -> 0 < nn -> lagrange_nodes t deg (Z.of_nat nn) -> (1 <= deg)%Z -> (Z.of_nat nn <= 65536)%Z ->
  let N := before (fun r => tagged (num_owned r) (indices r)) in
  0 < N P ->
  (forall r, r < P -> StronglySorted lt (indices r) /\ length (values r) = length (indices r)) ->
  (forall r e, r < P -> In e (indices r) -> e < num_owned r -> exists ns, closure_nodes (e_to_c r) (c_to_e r) entity_dofs (x_dofmap r) e ns /\
     length ns = nn /\ forall n, In n ns -> n < size_local r + length (ghosts r)) ->
  exists FT FV T v,
    add_meshtags size_local (before size_local) ghosts P order fill fillv (entity_nodes x_dofmap false e_to_c c_to_e entity_dofs) t nn num_owned indices values = Some (FT, FV) /\
    (forall q, q < Q -> read_topology_data t q Q (N P) nn FT = Some (T q)) /\
    (forall q, q < Q -> get_dataset q Q [N P; 1] [N P; 1] FV = Some (v q)) /\
    length (gathered Q T) = N P * nn /\ length (gathered Q v) = N P /\
    (forall q, q < Q -> length (T q) = length (v q) * nn) /\
    forall r j e ns, r < P -> nth_error (indices r) j = Some e -> e < num_owned r -> closure_nodes (e_to_c r) (c_to_e r) entity_dofs (x_dofmap r) e ns ->
      nth_error (gathered Q v) (N r + j) = nth_error (values r) j /\
      forall i n, nth_error ns i = Some n -> exists g, global_node size_local ghosts r n g /\ nth_error (gathered Q T) ((N r + j) * nn + i) = Some g.
Proof.
  intros HQ Hp Hnn Ht Hdeg Hwide N HN Hs Hcl. set (n := fun r => tagged (num_owned r) (indices r)) in *.
  set (ents := fun r => firstn (n r) (indices r)).
  assert (Hf : forall r, r < P -> ents r = filter (fun e => e <? num_owned r) (indices r)) by (intros r Hr; symmetry; apply sorted_filter, Hs; exact Hr).
  assert (Ln : forall r, n r <= length (indices r)) by (intro r; unfold n, tagged; clear; induction (indices r) as [|a l IH]; [cbn; lia|cbn [filter]; destruct (a <? num_owned r); cbn [length]; lia]).
  assert (Le : forall r, length (ents r) = n r) by (intro r; unfold ents; rewrite firstn_length; specialize (Ln r); lia).
  assert (Eb : forall r, before (fun r => length (ents r)) r = N r) by (intro r; apply before_ext; intros; apply Le).
  assert (Hin : forall r e, r < P -> In e (ents r) -> In e (indices r) /\ e < num_owned r).
  { intros r e Hr He. rewrite Hf in He by exact Hr. apply filter_In in He as [H1 H2]. apply Nat.ltb_lt in H2. now split. }
  destruct (topology_round_trip P size_local (before size_local) ghosts (entity_nodes x_dofmap false e_to_c c_to_e entity_dofs) t deg nn ents Hnn Ht Hdeg Hwide) with (Q := Q) (order := order) (fill := fill)
    as (FT & T & E1 & R1 & L1 & V1); [|exact HQ|now rewrite Eb|exact Hp|].
  { intros r e Hr He. destruct (Hin r e Hr He) as [H1 H2]. destruct (Hcl r e Hr H1 H2) as (ns & C & H3). exists ns. split; [now apply closure_entity|exact H3]. }
  rewrite Eb in R1, L1.
  set (vals := fun r => firstn (n r) (values r)). set (FV := gathered P vals).
  assert (Lv : forall r, r < P -> length (vals r) = n r * 1) by (intros r Hr; unfold vals; rewrite firstn_length, (proj2 (Hs r Hr)); specialize (Ln r); lia).
  assert (LFV : length FV = N P * 1) by (apply (gathered_length P 1 n vals Lv); lia).
  assert (Hread : forall q, exists l, q < Q -> get_dataset q Q [N P; 1] [N P; 1] FV = Some l /\ length l = (rhi Q (N P) q - rlo Q (N P) q) * 1 /\ forall m, m < (rhi Q (N P) q - rlo Q (N P) q) * 1 -> nth_error l m = nth_error FV (rlo Q (N P) q * 1 + m)).
  { intro q. destruct (Nat.lt_ge_cases q Q) as [Hq|Hq]; [|exists []; lia]. destruct (get_dataset_ok Q (N P) 1 FV HQ HN LFV q Hq) as (l & H). now exists l. }
  set (v := fun q => match get_dataset q Q [N P; 1] [N P; 1] FV with Some l => l | None => [] end).
  assert (Hv : forall q, q < Q -> get_dataset q Q [N P; 1] [N P; 1] FV = Some (v q) /\ length (v q) = (rhi Q (N P) q - rlo Q (N P) q) * 1 /\ forall m, m < (rhi Q (N P) q - rlo Q (N P) q) * 1 -> nth_error (v q) m = nth_error FV (rlo Q (N P) q * 1 + m)).
  { intros q Hq. destruct (Hread q) as (l & H). destruct (H Hq) as (E & H'). unfold v. rewrite E. now split. }
  assert (EG : gathered Q v = FV) by (apply (read_gathered Q (N P) 1 FV HQ HN LFV); intros q Hq; apply Hv; exact Hq).
  exists FT, FV, T, v. split.
  { unfold add_meshtags. change (fun r => firstn (num_active (num_owned r) (indices r)) (indices r)) with ents. rewrite E1. cbn [obind].
    rewrite (omap_map _ vals) by (intros r Hr; apply in_seq in Hr; apply slice_some; split; [lia|]; split; [rewrite (proj2 (Hs r ltac:(lia))); apply Ln|cbn [skipn]; now rewrite Nat.sub_0_r]). cbn [obind].
    assert (Ed : forall r, r < P -> nth r (map vals (seq 0 P)) [] = vals r).
    { intros r Hr. rewrite (nth_indep _ [] (vals 0)) by (rewrite map_length, seq_length; lia). rewrite map_nth, seq_nth by lia. reflexivity. }
    rewrite (add_data_item_ok P 1 n (fun r => nth r (map vals (seq 0 P)) [])); [cbn [obind]| |exact Hp|lia| |].
    - do 2 f_equal. unfold FV, gathered. f_equal. apply map_ext_in. intros r Hr. apply in_seq in Hr. apply Ed. lia.
    - intros r Hr. rewrite Ed by exact Hr. now apply Lv.
    - apply (exscan_before n P).
    - intros r Hr. apply (exscan_before n r). }
  split; [intros q Hq; apply R1; exact Hq|]. split; [intros q Hq; apply Hv; exact Hq|]. split; [exact L1|]. split; [rewrite EG, LFV; lia|]. split.
  { intros q Hq. rewrite (proj1 (proj2 (Hv q Hq))), (proj2 (R1 q Hq)). lia. }
  intros r j e ns Hr Ej He C. assert (Hj : nth_error (ents r) j = Some e).
  { assert (Hlt : j < n r).
    { destruct (Nat.lt_ge_cases j (n r)) as [H|H]; [exact H|]. exfalso. assert (Hi : In e (ents r)) by (rewrite Hf by exact Hr; apply filter_In; split; [exact (nth_error_In _ _ Ej)|now apply Nat.ltb_lt]).
      apply In_nth_error in Hi as (k & Ek). pose proof (nth_error_bound _ _ _ Ek) as Hk. rewrite Le in Hk. unfold ents in Ek. rewrite nth_firstn in Ek by exact Hk.
      assert (Hnd : NoDup (indices r)). { destruct (Hs r Hr) as [H1 _]. clear -H1. induction H1 as [|a l Hs IH Ha]; [constructor|]. constructor; [|exact IH]. intro Hi. rewrite Forall_forall in Ha. specialize (Ha a Hi). lia. }
      assert (k = j); [|lia]. apply (proj1 (NoDup_nth_error (indices r)) Hnd); [exact (nth_error_bound _ _ _ Ek)|congruence]. }
    unfold ents. now rewrite nth_firstn by exact Hlt. }
  pose proof (nth_error_bound _ _ _ Hj) as Hjn. rewrite Le in Hjn. split.
  - rewrite EG. unfold FV. replace (N r + j) with (before n r * 1 + j) by (unfold N; lia). rewrite (gathered_nth P 1 n vals Lv P r j) by lia. unfold vals. now apply nth_firstn.
  - intros i k Ek. destruct (Hcl r e Hr (nth_error_In _ _ Ej) He) as (ns' & C' & _ & Hns').
    assert (ns' = ns) by (apply closure_entity in C, C'; congruence). subst ns'. destruct (node_index_global size_local ghosts r k (Hns' k (nth_error_In _ _ Ek))) as (g & Eg & Gg). exists g. split; [exact Gg|].
    rewrite <- Eg, <- (V1 r j e i ns k Hr Hj); [now rewrite Eb|now apply closure_entity|exact Ek].
Qed.

(** ** Functions *)
Lemma put_values_ok {T} (x : list T) bs ncomp v row dof : ncomp * row + bs <= length v -> bs * dof + bs <= length x ->
  exists v', put_values x bs ncomp v row dof = Some v' /\ length v' = length v /\
  forall p, nth_error v' p = if (ncomp * row <=? p) && (p <? ncomp * row + bs) then nth_error x (bs * dof + (p - ncomp * row)) else nth_error v p.
Proof.
  intros Hv Hx. unfold put_values.
  destruct (ofold_prefix_ind (fun v j => y <- nth_error x (bs * dof + j) ;; upd v (ncomp * row + j) y) (fun done v' => length v' = length v /\
     forall p, nth_error v' p = if (ncomp * row <=? p) && (p <? ncomp * row + length done) then nth_error x (bs * dof + (p - ncomp * row)) else nth_error v p) (seq 0 bs) v) as (v' & E & L & H).
  - split; [reflexivity|]. intro p. cbn [length]. destruct (Nat.leb_spec (ncomp * row) p); destruct (Nat.ltb_spec p (ncomp * row + 0)); cbn [andb]; (reflexivity || lia).
  - intros p a q s Es (L & H). assert (La : length p = a /\ a < bs).
    { assert (E : nth_error (seq 0 bs) (length p) = Some a) by (rewrite Es, nth_error_app2, Nat.sub_diag by lia; reflexivity). pose proof (nth_error_bound _ _ _ E) as Hb. rewrite seq_length in Hb. rewrite nth_error_seq in E by exact Hb. injection E as E. lia. }
    destruct La as [La Hb]. destruct (nth_error_lt x (bs * dof + a) ltac:(lia)) as (y & Ey). rewrite Ey. cbn [obind]. destruct (upd_some s (ncomp * row + a) y ltac:(lia)) as (s' & Eu). exists s'. split; [exact Eu|]. split; [rewrite (upd_length _ _ _ _ Eu); exact L|].
    intro k. rewrite (upd_nth _ _ _ _ _ Eu), H, app_length. cbn [length]. rewrite La. destruct (Nat.eqb_spec (ncomp * row + a) k) as [<-|N].
    + rewrite (proj2 (Nat.leb_le (ncomp * row) (ncomp * row + a))) by lia. rewrite (proj2 (Nat.ltb_lt (ncomp * row + a) (ncomp * row + (a + 1)))) by lia. cbn [andb]. rewrite <- Ey. f_equal. lia.
    + destruct (Nat.leb_spec (ncomp * row) k); destruct (Nat.ltb_spec k (ncomp * row + a)); destruct (Nat.ltb_spec k (ncomp * row + (a + 1))); cbn [andb]; (reflexivity || lia).
  - exists v'. rewrite seq_length in H. now split.
Qed.
Lemma row_pos ncomp n m j : j < ncomp -> (ncomp * m <= n * ncomp + j < ncomp * m + ncomp) <-> n = m.
Proof. intro Hj. split; [|intros ->; lia]. intros [H1 H2]. assert (n * ncomp < (m + 1) * ncomp) by lia. assert (m * ncomp < (n + 1) * ncomp) by lia. nia. Qed.
Lemma put_row {T} (zero : T) (x : list T) bs ncomp v v' row dof n j : bs <= ncomp -> j < ncomp ->
  (forall p, nth_error v' p = if (ncomp * row <=? p) && (p <? ncomp * row + bs) then nth_error x (bs * dof + (p - ncomp * row)) else nth_error v p) ->
  nth_error v' (n * ncomp + j) = if n =? row then (if j <? bs then nth_error x (bs * dof + j) else nth_error v (n * ncomp + j)) else nth_error v (n * ncomp + j).
Proof.
  intros Hb Hj H. rewrite H. destruct (Nat.eqb_spec n row) as [->|N].
  - replace (row * ncomp + j - ncomp * row) with j by lia. destruct (Nat.leb_spec (ncomp * row) (row * ncomp + j)); destruct (Nat.ltb_spec (row * ncomp + j) (ncomp * row + bs)); destruct (Nat.ltb_spec j bs); cbn [andb]; (reflexivity || lia).
  - destruct (Nat.leb_spec (ncomp * row) (n * ncomp + j)); destruct (Nat.ltb_spec (n * ncomp + j) (ncomp * row + bs)); cbn [andb]; try reflexivity. exfalso. apply N, (row_pos ncomp n row j Hj). lia.
Qed.
Section Points.
Context {T : Type}.
Variables (zero : T) (bs ncomp npts : nat) (x : list T) (all : list (nat * nat)).
Hypothesis Hb : bs <= ncomp.
Hypothesis Hx : forall d n, In (d, n) all -> bs * d + bs <= length x.
Hypothesis Hag : forall d d' n, In (d, n) all -> In (d', n) all -> n < npts -> d = d'.
Definition pinv (done : list (nat * nat)) (v : list T) : Prop := length v = npts * ncomp /\
  (forall d n j, In (d, n) done -> n < npts -> j < ncomp -> nth_error v (n * ncomp + j) = dof_value zero bs x d j) /\
  (forall n j, n < npts -> j < ncomp -> (forall d, ~ In (d, n) done) -> nth_error v (n * ncomp + j) = Some zero).
Lemma points_fold : exists v, ofold (fun v p => if snd p <? npts then put_values x bs ncomp v (snd p) (fst p) else Some v) all (repeat zero (npts * ncomp)) = Some v /\ pinv all v.
Proof.
  apply (ofold_prefix_ind (fun v p => if snd p <? npts then put_values x bs ncomp v (snd p) (fst p) else Some v) pinv).
  - split; [apply repeat_length|]. split; [intros d n j []|]. intros n j Hn Hj _. apply nth_error_repeat. nia.
  - intros p [d n] q v Es (L & H1 & H2). cbn [fst snd]. assert (Hin : In (d, n) all) by (rewrite Es; apply in_elt). assert (Hp : forall y, In y p -> In y all) by (intros y Hy; rewrite Es; apply in_or_app; now left).
    destruct (Nat.ltb_spec n npts) as [Hn|Hn].
    + destruct (put_values_ok x bs ncomp v n d) as (v' & E & L' & H'); [nia|now apply (Hx d n)|]. exists v'. split; [exact E|]. split; [now rewrite L'|]. split.
      * intros d' n' j Hi Hn' Hj. rewrite (put_row zero x bs ncomp v v' n d n' j Hb Hj H'). apply in_app_or in Hi. destruct (Nat.eqb_spec n' n) as [->|N].
        -- assert (d' = d) as -> by (destruct Hi as [Hi|[Hi|[]]]; [apply (Hag d' d n); auto|now injection Hi as <-]). unfold dof_value. destruct (Nat.ltb_spec j bs) as [Hlt|Hge]; [reflexivity|].
           destruct (in_dec Nat.eq_dec n (map snd p)) as [Hm|Hm].
           ++ apply in_map_iff in Hm as ([d'' n''] & E'' & Hm). cbn in E''. subst n''. rewrite (H1 d'' n j Hm Hn Hj). unfold dof_value. now rewrite (proj2 (Nat.ltb_ge j bs)) by lia.
           ++ apply H2; auto. intros d'' Hi''. apply Hm, in_map_iff. now exists (d'', n).
        -- apply H1; auto. destruct Hi as [Hi|[Hi|[]]]; [exact Hi|]. injection Hi as <- <-. now elim N.
      * intros n' j Hn' Hj Hno. rewrite (put_row zero x bs ncomp v v' n d n' j Hb Hj H'). destruct (Nat.eqb_spec n' n) as [->|N]; [exfalso; apply (Hno d), in_or_app; right; now left|].
        apply H2; auto. intros d' Hi. apply (Hno d'), in_or_app. now left.
    + exists v. split; [reflexivity|]. split; [exact L|]. split.
      * intros d' n' j Hi Hn' Hj. apply in_app_or in Hi as [Hi|[Hi|[]]]; [now apply H1|]. injection Hi as <- <-. lia.
      * intros n' j Hn' Hj Hno. apply H2; auto. intros d' Hi. apply (Hno d'), in_or_app. now left.
Qed.
End Points.
Lemma in_combine_nth {A B} (l : list A) (l' : list B) a b : In (a, b) (combine l l') <-> exists i, nth_error l i = Some a /\ nth_error l' i = Some b.
Proof.
  revert l'. induction l as [|x l IH]; intros [|y l']; cbn [combine In]; try (split; [tauto|intros ([|i] & E1 & E2); discriminate]). rewrite IH. split.
  - intros [E|(i & E1 & E2)]; [injection E as -> ->; exists 0; now split|exists (S i); now split].
  - intros ([|i] & E1 & E2); [left; cbn in E1, E2; congruence|right; now exists i].
Qed.
Lemma point_values_ok {T} (zero : T) bs ncomp num_cells npts dofmap dofmap_x x : bs <= ncomp -> function_fits bs num_cells dofmap dofmap_x x ->
  (forall d d' n, n < npts -> dof_at_node num_cells dofmap dofmap_x d n -> dof_at_node num_cells dofmap dofmap_x d' n -> d = d') ->
  exists v, point_values zero bs ncomp num_cells npts dofmap dofmap_x x = Some v /\ length v = npts * ncomp /\
  (forall d n j, dof_at_node num_cells dofmap dofmap_x d n -> n < npts -> j < ncomp -> nth_error v (n * ncomp + j) = dof_value zero bs x d j) /\
  (forall n j, n < npts -> j < ncomp -> (forall d, ~ dof_at_node num_cells dofmap dofmap_x d n) -> nth_error v (n * ncomp + j) = Some zero).
Proof.
  intros Hb Hfit Hag. set (h := fun c => combine (nth c dofmap []) (nth c dofmap_x [])). set (all := concat (map h (seq 0 num_cells))).
  assert (Hall : forall d n, In (d, n) all <-> dof_at_node num_cells dofmap dofmap_x d n).
  { intros d n. unfold all. rewrite in_concat. split.
    - intros (l & Hl & Hi). apply in_map_iff in Hl as (c & <- & Hc). apply in_seq in Hc. destruct (Hfit c ltac:(lia)) as (dofs & nodes & E1 & E2 & _). unfold h in Hi. rewrite (nth_error_nth _ _ _ E1), (nth_error_nth _ _ _ E2) in Hi.
      apply in_combine_nth in Hi as (i & E3 & E4). exists c, i, dofs, nodes. repeat (split; [assumption || lia|]). assumption.
    - intros (c & i & dofs & nodes & Hc & E1 & E2 & E3 & E4). exists (h c). split; [apply in_map, in_seq; lia|]. unfold h. rewrite (nth_error_nth _ _ _ E1), (nth_error_nth _ _ _ E2). apply in_combine_nth. now exists i. }
  destruct (points_fold zero bs ncomp npts x all Hb) as (v & E & L & H1 & H2).
  - intros d n Hi. apply Hall in Hi as (c & i & dofs & nodes & Hc & E1 & E2 & E3 & E4). destruct (Hfit c Hc) as (dofs' & nodes' & E1' & _ & _ & H). rewrite E1 in E1'. injection E1' as <-. apply H. exact (nth_error_In _ _ E3).
  - intros d d' n Hi Hi' Hn. apply Hall in Hi, Hi'. now apply (Hag d d' n).
  - exists v. split.
    + rewrite <- E. unfold point_values, all. rewrite <- (ofold_nested _ (fun c => Some (h c)) h) by reflexivity. apply ofold_ext. intros s c Hc. apply in_seq in Hc.
      destruct (Hfit c ltac:(lia)) as (dofs & nodes & E1 & E2 & El & _). rewrite E1, E2. cbn [obind]. rewrite El, Nat.eqb_refl. cbn [negb]. unfold h. now rewrite (nth_error_nth _ _ _ E1), (nth_error_nth _ _ _ E2).
    + split; [exact L|]. split; [intros d n j Hd; apply H1; now apply Hall|]. intros n j Hn Hj Hno. apply H2; auto. intros d Hi. apply (Hno d). now apply Hall.
Qed.
Lemma cell_values_points {T} (zero : T) bs ncomp nc dofmap x : (forall c, c < nc -> exists d, nth_error dofmap c = Some [d]) ->
  cell_values zero bs ncomp nc dofmap x = point_values zero bs ncomp nc nc dofmap (map (fun c => [c]) (seq 0 nc)) x.
Proof.
  intro H. unfold cell_values, point_values. apply ofold_ext. intros v c Hc. apply in_seq in Hc. destruct (H c ltac:(lia)) as (d & ->). cbn [obind]. rewrite nth_error_map, nth_error_seq by lia. cbn [option_map obind length combine]. cbn [Nat.eqb negb ofold fst snd Nat.add].
  now rewrite (proj2 (Nat.ltb_lt c nc)) by lia.
Qed.
Lemma cell_values_ok {T} (zero : T) bs ncomp nc dofmap x : bs <= ncomp -> (forall c, c < nc -> exists d, nth_error dofmap c = Some [d] /\ bs * d + bs <= length x) ->
  exists v, cell_values zero bs ncomp nc dofmap x = Some v /\ length v = nc * ncomp /\
  forall c d j, c < nc -> nth_error dofmap c = Some [d] -> j < ncomp -> nth_error v (c * ncomp + j) = dof_value zero bs x d j.
Proof.
  intros Hb H. rewrite cell_values_points by (intros c Hc; destruct (H c Hc) as (d & E & _); now exists d).
  assert (Hn : forall c nodes, c < nc -> nth_error (map (fun c => [c]) (seq 0 nc)) c = Some nodes -> nodes = [c]) by (intros c nodes Hc; rewrite nth_error_map, nth_error_seq by exact Hc; cbn [option_map Nat.add]; congruence).
  destruct (point_values_ok zero bs ncomp nc nc dofmap (map (fun c => [c]) (seq 0 nc)) x Hb) as (v & E & L & H1 & _).
  - intros c Hc. destruct (H c Hc) as (d & E & Hd). exists [d], [c]. split; [exact E|]. split; [now rewrite nth_error_map, nth_error_seq by exact Hc|]. split; [reflexivity|]. intros d' [<-|[]]. exact Hd.
  - intros d d' n Hlt (c & i & dofs & nodes & Hc & E1 & E2 & E3 & E4) (c' & i' & dofs' & nodes' & Hc' & E1' & E2' & E3' & E4'). apply Hn in E2; [|exact Hc]. apply Hn in E2'; [|exact Hc']. subst nodes nodes'.
    destruct i as [|i]; [|destruct i; discriminate]. destruct i' as [|i']; [|destruct i'; discriminate]. cbn in E4, E4'. injection E4 as ->. injection E4' as ->. congruence.
  - exists v. split; [exact E|]. split; [exact L|]. intros c d j Hc Ed Hj. apply H1; auto. exists c, 0, [d], [c]. split; [exact Hc|]. split; [exact Ed|]. split; [now rewrite nth_error_map, nth_error_seq by exact Hc|]. now split.
Qed.
Lemma function_written {T} P order (fill : nat -> T) rows ncomp (values : nat -> option (list T)) (v : nat -> list T) : Permutation order (seq 0 P) -> 0 < ncomp ->
  (forall r, r < P -> values r = Some (v r) /\ length (v r) = rows r * ncomp) ->
  add_function P order fill (before rows P) ncomp values = Some (gathered P v).
Proof.
  intros Hp Hc Hv. unfold add_function. rewrite (omap_map _ v) by (intros r Hr; apply in_seq in Hr; apply Hv; lia). cbn [obind].
  assert (Ed : forall r, r < P -> nth r (map v (seq 0 P)) [] = v r).
  { intros r Hr. rewrite (nth_indep _ [] (v 0)) by (rewrite map_length, seq_length; lia). rewrite map_nth, seq_nth by lia. reflexivity. }
  rewrite (add_data_item_ok P ncomp rows (fun r => nth r (map v (seq 0 P)) [])); [| |exact Hp|exact Hc|reflexivity|].
  - f_equal. unfold gathered. f_equal. apply map_ext_in. intros r Hr. apply in_seq in Hr. apply Ed. lia.
  - intros r Hr. rewrite Ed by exact Hr. apply Hv. exact Hr.
  - intros r Hr. etransitivity; [apply exscan_before|]. apply before_ext. intros i Hi. rewrite Ed by lia. rewrite (proj2 (Hv i ltac:(lia))). apply Nat.div_mul. lia.
Qed.
Lemma padded_bound rank bs : bs <= padded_components rank bs /\ 3 ^ rank <= padded_components rank bs /\ 0 < padded_components rank bs.
Proof. unfold padded_components. assert (0 < 3 ^ rank) by (apply Nat.neq_0_lt_0, Nat.pow_nonzero; lia). destruct (Nat.ltb_spec bs (3 ^ rank)); lia. Qed.
Lemma point_function {T} (zero : T) P order fill bs rank size_local num_cells dofmap dofmap_x (x : nat -> list T) : Permutation order (seq 0 P) ->
  (forall r, r < P -> function_fits bs (num_cells r) (dofmap r) (dofmap_x r) (x r)) ->
  (forall r d d' n, r < P -> n < size_local r -> dof_at_node (num_cells r) (dofmap r) (dofmap_x r) d n -> dof_at_node (num_cells r) (dofmap r) (dofmap_x r) d' n -> d = d') ->
  let ncomp := padded_components rank bs in
  exists F, add_function P order fill (before size_local P) ncomp (fun r => point_values zero bs ncomp (num_cells r) (size_local r) (dofmap r) (dofmap_x r) (x r)) = Some F /\
    length F = before size_local P * ncomp /\
    (forall r d n j, r < P -> n < size_local r -> dof_at_node (num_cells r) (dofmap r) (dofmap_x r) d n -> j < ncomp -> nth_error F ((before size_local r + n) * ncomp + j) = dof_value zero bs (x r) d j) /\
    (forall r n j, r < P -> n < size_local r -> (forall d, ~ dof_at_node (num_cells r) (dofmap r) (dofmap_x r) d n) -> j < ncomp -> nth_error F ((before size_local r + n) * ncomp + j) = Some zero).
Proof.
  intros Hp Hfit Hag ncomp. destruct (padded_bound rank bs) as (Hb & _ & Hc). fold ncomp in Hb, Hc.
  set (v := fun r => match point_values zero bs ncomp (num_cells r) (size_local r) (dofmap r) (dofmap_x r) (x r) with Some l => l | None => [] end).
  assert (Hv : forall r, r < P -> point_values zero bs ncomp (num_cells r) (size_local r) (dofmap r) (dofmap_x r) (x r) = Some (v r) /\ length (v r) = size_local r * ncomp /\
    (forall d n j, dof_at_node (num_cells r) (dofmap r) (dofmap_x r) d n -> n < size_local r -> j < ncomp -> nth_error (v r) (n * ncomp + j) = dof_value zero bs (x r) d j) /\
    (forall n j, n < size_local r -> j < ncomp -> (forall d, ~ dof_at_node (num_cells r) (dofmap r) (dofmap_x r) d n) -> nth_error (v r) (n * ncomp + j) = Some zero)).
  { intros r Hr. destruct (point_values_ok zero bs ncomp (num_cells r) (size_local r) (dofmap r) (dofmap_x r) (x r) Hb (Hfit r Hr)) as (l & E & H); [intros d d' n; now apply Hag|]. unfold v. rewrite E. now split. }
  assert (Lv : forall r, r < P -> length (v r) = size_local r * ncomp) by (intros r Hr; apply Hv; exact Hr).
  exists (gathered P v). split; [apply function_written; auto; intros r Hr; split; apply Hv; exact Hr|]. split; [apply (gathered_length P ncomp size_local v Lv); lia|].
  assert (Hn : forall r n j, r < P -> n < size_local r -> j < ncomp -> nth_error (gathered P v) ((before size_local r + n) * ncomp + j) = nth_error (v r) (n * ncomp + j)).
  { intros r n j Hr Hn Hj. replace ((before size_local r + n) * ncomp + j) with (before size_local r * ncomp + (n * ncomp + j)) by lia. apply (gathered_nth P ncomp size_local v Lv); nia. }
  split; [intros r d n j Hr Hlt Hd Hj|intros r n j Hr Hlt Hd Hj]; rewrite Hn by assumption; now apply Hv.
Qed.
Lemma cell_function {T} (zero : T) P order fill bs rank num_cells dofmap (x : nat -> list T) : Permutation order (seq 0 P) ->
  (forall r c, r < P -> c < num_cells r -> exists d, nth_error (dofmap r) c = Some [d] /\ bs * d + bs <= length (x r)) ->
  let ncomp := padded_components rank bs in
  exists F, add_function P order fill (before num_cells P) ncomp (fun r => cell_values zero bs ncomp (num_cells r) (dofmap r) (x r)) = Some F /\
    length F = before num_cells P * ncomp /\
    forall r c d j, r < P -> c < num_cells r -> nth_error (dofmap r) c = Some [d] -> j < ncomp -> nth_error F ((before num_cells r + c) * ncomp + j) = dof_value zero bs (x r) d j.
Proof.
  intros Hp Hfit ncomp. destruct (padded_bound rank bs) as (Hb & _ & Hc). fold ncomp in Hb, Hc.
  set (v := fun r => match cell_values zero bs ncomp (num_cells r) (dofmap r) (x r) with Some l => l | None => [] end).
  assert (Hv : forall r, r < P -> cell_values zero bs ncomp (num_cells r) (dofmap r) (x r) = Some (v r) /\ length (v r) = num_cells r * ncomp /\
    forall c d j, c < num_cells r -> nth_error (dofmap r) c = Some [d] -> j < ncomp -> nth_error (v r) (c * ncomp + j) = dof_value zero bs (x r) d j).
  { intros r Hr. destruct (cell_values_ok zero bs ncomp (num_cells r) (dofmap r) (x r) Hb) as (l & E & H); [intros c Hlt; now apply Hfit|]. unfold v. rewrite E. now split. }
  assert (Lv : forall r, r < P -> length (v r) = num_cells r * ncomp) by (intros r Hr; apply Hv; exact Hr).
  exists (gathered P v). split; [apply function_written; auto; intros r Hr; split; apply Hv; exact Hr|]. split; [apply (gathered_length P ncomp num_cells v Lv); lia|].
  intros r c d j Hr Hlt Hd Hj. replace ((before num_cells r + c) * ncomp + j) with (before num_cells r * ncomp + (c * ncomp + j)) by lia.
  rewrite (gathered_nth P ncomp num_cells v Lv P r (c * ncomp + j)) by nia. now apply Hv.
Qed.

(** ** Flat data *)
Lemma flat_statement {A} rank size N k (F : list A) : 2 <= N -> 1 <= k -> get_dataset rank size [N; k] [N * k] F = None.
Proof.
  intros HN Hk. unfold get_dataset. destruct (N * k) as [|m] eqn:E; [reflexivity|]. destruct (list_eq_dec Nat.eq_dec [N; k] [S m]) as [H|_]; [discriminate|].
  replace (product [N; k]) with (N * k) by (unfold product; cbn [fold_left]; lia). rewrite <- E. rewrite (proj2 (Nat.eqb_neq (N * k * N) (N * k))) by nia. reflexivity.
Qed.
