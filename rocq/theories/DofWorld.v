(** The dofmap over all ranks. *)
From Verif Require LiNumber.
From Verif Require Import Base BaseProofs BucketProofs Algo AlgoProofs Nbx World WorldProofs IndexMap IndexMapSpec IndexMapProofs ImSharedProofs SparsityProofs PatternMats OrientProofs CellTypes DofBuilder DofSpec DofReq DofCells DofBasic RenumSpec DofRenum DofGlobal.
Open Scope nat_scope.

(** ** Owned dofs *)
Lemma countb_concat {A} (f : A -> bool) L : countb f (concat L) = lsum (map (countb f) L).
Proof. induction L as [|l L IH]; [reflexivity|]. cbn [concat map]. rewrite countb_app, lsum_cons, IH. reflexivity. Qed.
Lemma countb_ext_in {A} (f g : A -> bool) l : (forall x, In x l -> f x = g x) -> countb f l = countb g l.
Proof. induction l as [|x l IH]; intros H; [reflexivity|]. cbn [countb]. rewrite (H x) by now left. rewrite IH; [reflexivity|]. intros; apply H; now right. Qed.
Lemma countb_nth {A} (f : A -> bool) (h : nat -> bool) l : (forall i x, nth_error l i = Some x -> h i = f x) -> countb h (seq 0 (length l)) = countb f l.
Proof.
  intros H. induction l as [|x l IH] using rev_ind; [reflexivity|]. rewrite app_length. cbn [length]. rewrite Nat.add_1_r, seq_S, !countb_app. rewrite IH.
  - cbn [countb Nat.add]. rewrite (H (length l) x); [reflexivity|]. rewrite nth_error_app2, Nat.sub_diag by lia. reflexivity.
  - intros i y E. apply H. rewrite nth_error_app1; [exact E|eapply nth_error_bound; eauto].
Qed.
Lemma countb_lt a n : a <= n -> countb (fun e => e <? a) (seq 0 n) = a.
Proof.
  intros H. induction n as [|n IH]; [cbn; lia|]. rewrite seq_S, countb_app. cbn [countb Nat.add]. destruct (Nat.eq_dec a (S n)) as [->|N].
  - rewrite (countb_ext_in _ (fun _ => true)) by (intros x Hx; apply in_seq in Hx; apply Nat.ltb_lt; lia). rewrite (proj2 (Nat.ltb_lt n (S n))) by lia.
    assert (E : forall l : list nat, countb (fun _ => true) l = length l) by (induction l; cbn; auto). rewrite E, seq_length. lia.
  - rewrite IH by lia. rewrite (proj2 (Nat.ltb_ge n a)) by lia. lia.
Qed.
Lemma countb_repeat {A} (f : A -> bool) x n : countb f (repeat x n) = if f x then n else 0.
Proof. induction n as [|n IH]; cbn [repeat countb]; [now destruct (f x)|]. rewrite IH. destruct (f x); lia. Qed.
Lemma lsum_if {A} (f : A -> bool) n l : lsum (map (fun e => if f e then n else 0) l) = n * countb f l.
Proof. induction l as [|x l IH]; cbn [map countb]; [rewrite lsum_nil; lia|]. rewrite lsum_cons, IH. destruct (f x); lia. Qed.

Lemma own_sum tp rq : nowned (map (fun r => size_local (req_map tp r)) rq) (dof_entities tp rq) = lsum (map (fun r => snd r * size_local (req_map tp r)) rq).
Proof.
  set (sizes := map (fun r => size_local (req_map tp r)) rq).
  set (f := fun e : nat * nat => match nth_error sizes (fst e) with Some o => snd e <? o | None => false end).
  unfold nowned. rewrite (countb_nth f).
  2:{ intros i e E. unfold ownedb, is_owned, f. rewrite E. cbn [obind]. now destruct (nth_error sizes (fst e)). }
  unfold dof_entities. rewrite countb_concat, map_map.
  assert (G : forall pre rs, rq = pre ++ rs -> lsum (map (fun kr : nat * req => countb f (concat (map (fun e => repeat (fst kr, e) (snd (snd kr))) (seq 0 (length (global_indices (req_map tp (snd kr)))))))) (combine (seq (length pre) (length rs)) rs)) = lsum (map (fun r => snd r * size_local (req_map tp r)) rs)).
  { intros pre rs. revert pre. induction rs as [|r rs IH]; intros pre E; [reflexivity|]. cbn [length seq combine map]. rewrite !lsum_cons. f_equal.
    - cbn [fst snd]. rewrite countb_concat, map_map, globals_len.
      assert (En : nth_error sizes (length pre) = Some (size_local (req_map tp r))) by (unfold sizes; rewrite nth_error_map_some, E, nth_error_app2, Nat.sub_diag by lia; reflexivity).
      rewrite (map_ext _ (fun e => if e <? size_local (req_map tp r) then snd r else 0)) by (intros e; rewrite countb_repeat; unfold f; cbn [fst snd]; rewrite En; reflexivity).
      rewrite (lsum_if (fun e => e <? size_local (req_map tp r))), countb_lt by (unfold map_size; lia). reflexivity.
    - specialize (IH (pre ++ [r])). rewrite app_length in IH. cbn [length] in IH. rewrite Nat.add_1_r in IH. apply IH. rewrite <- app_assoc. exact E. }
  apply (G []). reflexivity.
Qed.

(** Every position of a cell is on an entity. *)
Lemma position_slot tp lys : tp_ok tp lys -> forall i c p ct ly, nth_error (tp_types tp (tp_dim tp)) i = Some ct -> nth_error lys i = Some ly ->
  c < map_size (tp_map tp (tp_dim tp) i) -> p < ly_num ly -> exists d t x j, slot tp lys i c p d t x j.
Proof.
  intros Hok i c p ct ly Ect Ely Hc Hp. destruct (tk_shape _ _ Hok i ct ly Ect Ely) as (S1 & S2 & S3).
  assert (Hin : In p (concat (concat (ly_dofs ly)))) by (rewrite S3; apply in_seq; lia).
  apply in_concat in Hin as (ds & Hds & Hin). apply in_concat in Hds as (eds & Heds & Hds).
  apply In_nth_error in Heds as (d & Hd). apply In_nth_error in Hds as (e & He). apply In_nth_error in Hin as (j & Hj).
  assert (Hon : on_entity tp lys i d e (cell_entity_type ct d e) ds) by (exists ct, ly, eds; auto). assert (Hne : ds <> []) by (intros ->; destruct j; discriminate).
  exists d, (cell_entity_type ct d e). pose proof (nth_error_bound _ _ _ Hd) as Bd.
  destruct (Nat.eqb_spec d (tp_dim tp)) as [Ed|Nd].
  - exists c, j, e, ds. split; [exact Hon|]. split; [exact Hj|]. unfold attached. rewrite (proj2 (Nat.eqb_eq _ _) Ed). reflexivity.
  - pose proof (tk_known _ _ Hok i d e _ ds Hon Hne) as Hk. apply In_nth_error in Hk as (et & Het).
    pose proof (tk_conn _ _ Hok i d et e _ ds ltac:(lia) Hon Hne Het) as Hcn. destruct (tp_conn tp i d et) as [links|] eqn:El; [|congruence].
    destruct (tk_links _ _ Hok i ct d et _ links ltac:(lia) Ect Het El) as (Ll & Hrow). destruct (nth_error_lt links c) as (row & Er); [lia|].
    destruct (Hrow row _ (nth_error_In _ _ Er) (S2 d eds Hd)) as (Lrow & _).
    assert (Lt : rank_in_type ct d e (cell_entity_type ct d e) < length row). { rewrite Lrow. unfold rank_in_type. apply LiNumber.countb_seq_lt; [eapply nth_error_bound; eauto|]. now apply cell_eqb_iff. }
    destruct (nth_error_lt row _ Lt) as (x & Ex). exists x, j, e, ds. split; [exact Hon|]. split; [exact Hj|]. unfold attached. rewrite (proj2 (Nat.eqb_neq _ _) Nd). exists ct, et, links, row. auto 10.
Qed.

Section DofWorld.
Variables (P : nat) (nbx : (nat -> list nat) -> nat -> list nat) (tps : nat -> topo) (lys : list layout)
          (reorder : nat -> option (list (list nat) -> list nat)) (order : nat -> list nat).
Hypothesis Hn : nbx_oracle P nbx.
Hypothesis HP : 0 < P.
Hypothesis Hw : dof_world P tps lys.
Definition rq0 : list req := req_list (tp_types (tps 0)) (tp_dim (tps 0)) lys.
Hypothesis Hre : forall q f, q < P -> reorder q = Some f -> reorder_wf f (lsum (map (fun r => snd r * size_local (req_map (tps q) r)) rq0)).
Hypothesis Hord : forall q, q < P -> Permutation (order q) (seq 0 (length rq0)).

Lemma required_q q : q < P -> required (tps q) lys = Some rq0 /\ rq_ok (tps q) lys rq0.
Proof.
  intros Hq. destruct (required_ok (tps q) lys (dw_ok _ _ _ Hw q Hq)) as (E & R). rewrite (dw_dim _ _ _ Hw q Hq) in *.
  rewrite (req_list_ext (tp_types (tps q)) (tp_types (tps 0))) in * by (intros; now apply (dw_types _ _ _ Hw)). auto.
Qed.
Lemma carries_in q d et n : q < P -> (carries (tps q) lys d et n <-> In ((d, et), n) rq0).
Proof. intros Hq. destruct (required_q q Hq) as (_ & _ & H). symmetry. apply H. Qed.
Lemma carries_key q d et n : q < P -> carries (tps q) lys d et n -> exists k, nth_error rq0 k = Some ((d, et), n).
Proof. intros Hq H. apply carries_in in H; [|exact Hq]. apply In_nth_error in H. exact H. Qed.
Lemma key_carries q k d et n : q < P -> nth_error rq0 k = Some ((d, et), n) -> carries (tps q) lys d et n.
Proof. intros Hq H. apply carries_in; [exact Hq|]. eapply nth_error_In; eauto. Qed.
Lemma key_inj k k' d et n n' : nth_error rq0 k = Some ((d, et), n) -> nth_error rq0 k' = Some ((d, et), n') -> k = k'.
Proof.
  intros H H'. destruct (required_q 0 HP) as (_ & ND & _). apply (NoDup_nth_error_inj (map fst rq0) k k' (d, et) ND); rewrite nth_error_map_some; [rewrite H|rewrite H']; reflexivity.
Qed.

Definition emap (k q : nat) : imap := entity_map tps lys k q.
Lemma emap_eq k q r : q < P -> nth_error rq0 k = Some r -> emap k q = req_map (tps q) r.
Proof. intros Hq Hk. unfold emap, entity_map. rewrite (proj1 (required_q q Hq)), Hk. reflexivity. Qed.
Lemma emap_ok k : k < length rq0 -> maps_ok P (emap k).
Proof.
  intros Hk. destruct (nth_error_lt rq0 k Hk) as (((d, et), n) & E). apply (maps_ok_ext P (fun r => tp_map (tps r) d et)); [exact HP| |].
  - intros r Hr. rewrite (emap_eq k r _ Hr E). reflexivity.
  - apply (dw_maps _ _ _ Hw d et n). exact (key_carries 0 k d et n HP E).
Qed.
Lemma emap_size k q : k < length rq0 -> q < P -> im_size_global (emap k q) = im_hi (emap k (P - 1)).
Proof.
  intros Hk Hq. destruct (nth_error_lt rq0 k Hk) as (((d, et), n) & E). rewrite (emap_eq k q _ Hq E), (emap_eq k (P - 1) _ ltac:(lia) E).
  apply (dw_size _ _ _ Hw d et n q); [exact (key_carries 0 k d et n HP E)|exact Hq].
Qed.

Definition owq (q : nat) : nat := nowned (szs rq0 tps q) (de rq0 tps q).
Definition o2nq (q : nat) : list nat := match basic tps lys reorder q with Some (_, o2n, _) => o2n | None => [] end.
Definition dofq (q : nat) : list (list (list nat)) := match basic tps lys reorder q with Some (_, d, _, _) => d | None => [] end.
Lemma basic_q q : q < P -> basic tps lys reorder q = Some (rq0, dofq q, o2nq q, owq q) /\ cell_dofs (tps q) lys rq0 = Some (dofq q) /\ renum_ok (szs rq0 tps q) (de rq0 tps q) (o2nq q) (owq q).
Proof.
  intros Hq. destruct (required_q q Hq) as (E & R). destruct (cell_dofs_ok (tps q) lys rq0 (dw_ok _ _ _ Hw q Hq) R) as (dofs & Ed & Ld & Hs & Ha).
  assert (Hin : renum_input (szs rq0 tps q) (de rq0 tps q) dofs).
  { split.
    - intros k x H. apply In_nth_error in H as (i & Hi). unfold szs. rewrite map_length.
      assert (Hl : i < total (tps q) rq0) by (rewrite <- dof_entities_len; eapply nth_error_bound; eauto). destruct (dof_index (tps q) rq0 i Hl) as (k' & r & x' & j & Hk & Hx & Hj & ->).
      unfold de in Hi. rewrite (dof_entities_nth (tps q) rq0 k' r x' j Hk Hx Hj) in Hi. injection Hi as <- <-. eapply nth_error_bound; eauto.
    - intros rows row dof H1 H2 H3. unfold de. rewrite dof_entities_len.
      apply In_nth_error in H1 as (i & H1). apply In_nth_error in H2 as (c & H2). apply In_nth_error in H3 as (p & H3).
      pose proof (nth_error_bound _ _ _ H1) as B1. destruct (nth_error_lt lys i) as (ly & Ely); [lia|]. destruct (Hs i ly rows Ely H1) as (Lr & Hr).
      pose proof (dw_ok _ _ _ Hw q Hq) as Hok. destruct (nth_error_lt (tp_types (tps q) (tp_dim (tps q))) i) as (ct & Ect); [rewrite <- (tk_layouts _ _ Hok); lia|].
      destruct (tk_shape _ _ Hok i ct ly Ect Ely) as (S1 & S2 & S3). assert (Hp : p < ly_num ly) by (rewrite <- (Hr row (nth_error_In _ _ H2)); eapply nth_error_bound; eauto).
      assert (Hc : c < map_size (tp_map (tps q) (tp_dim (tps q)) i)) by (rewrite <- Lr; eapply nth_error_bound; eauto).
      destruct (position_slot (tps q) lys Hok i c p ct ly Ect Ely Hc Hp) as (d & t & x & j & Hslot).
      destruct (slot_req (tps q) lys rq0 Hok R i c p d t x j Hslot Hc) as (k & et & n & Hk & Ht & Hj & Hx).
      destruct (Ha i c p d t x j k et n Hslot Hc Hk Ht) as (rows' & row' & A1 & A2 & A3). rewrite H1 in A1. injection A1 as <-. rewrite H2 in A2. injection A2 as <-. rewrite H3 in A3. injection A3 as ->.
      exact (dof_total (tps q) rq0 k (d, et, n) x j Hk Hx Hj). }
  destruct (reordering_ok (szs rq0 tps q) (de rq0 tps q) dofs Hin (reorder q)) as (o2n & Eo & Ro); [intros f Hf; unfold szs, de; rewrite own_sum; now apply (Hre q)|].
  assert (Eb : basic tps lys reorder q = Some (rq0, dofs, o2n, owq q)) by (unfold basic; rewrite E; cbn [obind]; rewrite Ed; cbn [obind]; unfold szs, de in Eo; rewrite Eo; reflexivity).
  unfold dofq, o2nq. rewrite Eb. auto.
Qed.
Lemma gi_q q : q < P -> gi_of tps lys reorder q = Some (gin rq0 tps o2nq q).
Proof. intros Hq. unfold gi_of. rewrite (proj1 (basic_q q Hq)). reflexivity. Qed.
Lemma ren_q q : q < P -> renum_ok (szs rq0 tps q) (de rq0 tps q) (o2nq q) (own rq0 tps q).
Proof. intros Hq. apply basic_q, Hq. Qed.

Definition LS (s : nat) : nat := match basic tps lys reorder s with Some (_, n) => n | None => 0 end.
Definition GL (s : nat) : list nat := match unowned_of P tps lys reorder order s with Some (g, _) => g | None => [] end.
Definition OW (s : nat) : list nat := match unowned_of P tps lys reorder order s with Some (_, o) => o | None => [] end.
Lemma LS_eq q : q < P -> LS q = own rq0 tps q.
Proof. intros Hq. unfold LS. rewrite (proj1 (basic_q q Hq)). reflexivity. Qed.
Lemma unowned_q q : q < P -> unowned_of P tps lys reorder order q = Some (GL q, OW q) /\ length (GL q) = tot rq0 tps q - own rq0 tps q /\ length (OW q) = tot rq0 tps q - own rq0 tps q /\
    forall m, m < tot rq0 tps q - own rq0 tps q -> exists G o, ghost_dof P rq0 tps emap o2nq q m G o /\ nth_error (GL q) m = Some G /\ nth_error (OW q) m = Some o.
Proof.
  intros Hq. destruct (global_indices_ok P rq0 tps emap o2nq emap_ok emap_eq emap_size ren_q (gi_of tps lys reorder) gi_q q (order q) Hq (Hord q Hq)) as (gl & ow & E & L1 & L2 & H).
  unfold GL, OW. unfold unowned_of. change (entity_map tps lys) with emap. rewrite E. auto.
Qed.

Lemma lsum_mul_add {A} (f g h : A -> nat) l : (forall x, In x l -> f x = g x + h x) -> lsum (map f l) = lsum (map g l) + lsum (map h l).
Proof using Type. clear. induction l as [|x l IH]; intros H; [reflexivity|]. cbn [map]. rewrite !lsum_cons, (H x) by now left. rewrite IH by (intros; apply H; now right). lia. Qed.
Lemma lsum_zero {A} (f : A -> nat) l : (forall x, In x l -> f x = 0) -> lsum (map f l) = 0.
Proof using Type. clear. induction l as [|x l IH]; intros H; [reflexivity|]. cbn [map]. rewrite lsum_cons, (H x) by now left. rewrite IH by (intros; apply H; now right). lia. Qed.
Lemma off_sum o : o < P -> offq rq0 tps o = lsum (map LS (seq 0 o)).
Proof.
  assert (Hr : forall r, In r rq0 -> exists k, nth_error rq0 k = Some r /\ maps_ok P (emap k)) by (intros r Hr; apply In_nth_error in Hr as (k & Hk); exists k; split; [exact Hk|]; apply emap_ok; eapply nth_error_bound; eauto).
  induction o as [|o IH]; intros Ho.
  - unfold offq, global_start. cbn [seq map]. rewrite lsum_nil. apply lsum_zero.
    intros r Hin. destruct (Hr r Hin) as (k & Hk & Mk). rewrite <- (emap_eq k 0 r HP Hk), (mo_first _ _ Mk). lia.
  - rewrite seq_S, map_app, lsum_app, <- IH by lia. cbn [map]. rewrite lsum_cons, lsum_nil, Nat.add_0_r. cbn [Nat.add]. rewrite LS_eq by lia. unfold own, szs, de. rewrite own_sum. unfold offq, global_start.
    apply lsum_mul_add. intros r Hin. destruct (Hr r Hin) as (k & Hk & Mk). rewrite <- (emap_eq k (S o) r Ho Hk), <- (emap_eq k o r ltac:(lia) Hk), (mo_next _ _ Mk o Ho).
    pose proof (mo_range _ _ Mk o ltac:(lia)) as R. unfold size_local. rewrite <- Nat.mul_add_distr_l. f_equal. lia.
Qed.
Lemma sum_mono a b : a <= b -> lsum (map LS (seq 0 a)) <= lsum (map LS (seq 0 b)).
Proof using Type. clear. induction 1; [lia|]. rewrite seq_S, map_app, lsum_app. lia. Qed.
Lemma canon_range k g j G o : canon P rq0 tps emap o2nq k g j G o -> o < P /\ lsum (map LS (seq 0 o)) <= G < lsum (map LS (seq 0 (S o))).
Proof.
  intros (r & v & _ & _ & Ho & _ & _ & Lv & ->). split; [exact Ho|]. rewrite seq_S, map_app, lsum_app. cbn [map Nat.add]. rewrite lsum_cons, lsum_nil, (off_sum o Ho), (LS_eq o Ho). lia.
Qed.
Lemma canon_inj k g j G o k' g' j' o' : canon P rq0 tps emap o2nq k g j G o -> canon P rq0 tps emap o2nq k' g' j' G o' -> k = k' /\ g = g' /\ j = j'.
Proof.
  intros HC HC'. pose proof (canon_range _ _ _ _ _ HC) as (Ho & R). pose proof (canon_range _ _ _ _ _ HC') as (Ho' & R').
  assert (o' = o) as ->. { destruct (Nat.lt_trichotomy o o') as [L|[L|L]]; [pose proof (sum_mono (S o) o' L); lia|auto|pose proof (sum_mono (S o') o L); lia]. }
  destruct HC as (r & v & Hk & Hj & _ & Hwn & Hv & Lv & ->). destruct HC' as (r' & v' & Hk' & Hj' & _ & Hwn' & Hv' & Lv' & E).
  assert (v' = v) as -> by lia. pose proof (o2n_inj P rq0 tps o2nq ren_q o _ _ _ Ho Hv Hv') as Ed. unfold owns in *.
  apply (dofn_inj P rq0 tps emap emap_eq o k r _ j k' r' _ j' Ho Hk) in Ed; [|unfold map_size, size_local; lia|exact Hj|exact Hk'|unfold map_size, size_local; lia|exact Hj'].
  destruct Ed as (<- & Ex & <-). split; [reflexivity|]. split; [lia|reflexivity].
Qed.

Lemma inputs_dof : inputs_ok P LS GL OW.
Proof.
  intros q Hq. destruct (unowned_q q Hq) as (_ & L1 & L2 & Hm). split; [lia|]. split.
  - apply NoDup_nth_error. intros m m' Lm E. rewrite L1 in Lm. destruct (Hm m Lm) as (G & o & HD & E1 & _).
    assert (Lm' : m' < tot rq0 tps q - own rq0 tps q) by (rewrite <- L1; apply nth_error_Some; rewrite <- E, E1; discriminate). destruct (Hm m' Lm') as (G' & o' & HD' & E1' & _).
    assert (G' = G) as -> by congruence. destruct HD as (k & r & x & j & g & Hk & Hx & Hj & Hv & Hg & HC). destruct HD' as (k' & r' & x' & j' & g' & Hk' & Hx' & Hj' & Hv' & Hg' & HC').
    destruct (canon_inj _ _ _ _ _ _ _ _ _ HC HC') as (<- & <- & <-). rewrite Hk in Hk'. injection Hk' as <-.
    assert (x = x') as <- by (exact (l2g_inj P (emap k) q x x' g (emap_ok k (nth_error_bound _ _ _ Hk)) Hq Hg Hg')). rewrite Hv in Hv'. injection Hv' as Hv'. lia.
  - intros m g o E1 E2. assert (Lm : m < tot rq0 tps q - own rq0 tps q) by (rewrite <- L1; eapply nth_error_bound; eauto). destruct (Hm m Lm) as (G & o' & HD & E1' & E2').
    assert (G = g) as -> by congruence. assert (o' = o) as -> by congruence. destruct HD as (k & r & x & j & gx & Hk & Hx & Hj & Hv & Hg & HC). destruct (canon_range _ _ _ _ _ HC) as (Ho & R).
    split; [exact Ho|]. split; [|exact R].
    destruct (dof_facts P rq0 tps emap o2nq emap_ok emap_eq ren_q q k r x j Hq Hk Hx Hj) as (g2 & v2 & Hg2 & Hv2 & Lv2 & _). rewrite Hv in Hv2. injection Hv2 as <-.
    destruct (canon_owner P rq0 emap emap_ok q k r x gx Hq Hk Hg) as (o2 & Ho2 & Hw2 & _ & Hgh). destruct (Hgh ltac:(lia)) as (No & _).
    destruct HC as (r1 & v1 & _ & _ & _ & Hwn & _). rewrite (owner_unique P (emap k) (emap_ok k (nth_error_bound _ _ _ Hk)) o o2 gx Ho Ho2 Hwn Hw2). exact No.
Qed.

Definition numq (q d et x j : nat) : nat :=
  match find (fun kr : nat * req => pair_eqb (fst (snd kr)) (d, et)) (combine (seq 0 (length rq0)) rq0) with
  | Some (k, r) => match nth_error (o2nq q) (dofn rq0 tps q k (snd r) x j) with Some v => v | None => 0 end
  | None => 0
  end.
Lemma num_eq q k d et n x j : q < P -> nth_error rq0 k = Some ((d, et), n) -> x < map_size (tp_map (tps q) d et) -> j < n ->
  nth_error (o2nq q) (dofn rq0 tps q k n x j) = Some (numq q d et x j).
Proof.
  intros Hq Hk Hx Hj. unfold numq. destruct (find _ _) as [(k', r')|] eqn:Ef.
  - apply find_some in Ef as (Hin & Ek). apply in_enum in Hin. apply peqb_iff in Ek. cbn [fst snd] in Ek. destruct r' as ((d', et'), n'). cbn [fst] in Ek. injection Ek as -> ->.
    assert (k' = k) as -> by (exact (key_inj k' k d et n' n Hin Hk)). rewrite Hk in Hin. injection Hin as <-. cbn [snd].
    assert (Hx' : x < map_size (emap k q)) by (rewrite (emap_eq k q _ Hq Hk); exact Hx).
    destruct (dof_facts P rq0 tps emap o2nq emap_ok emap_eq ren_q q k ((d, et), n) x j Hq Hk Hx' Hj) as (g & v & _ & Hv & _). cbn [snd] in Hv. rewrite Hv. reflexivity.
  - exfalso. pose proof (find_none _ _ Ef (k, ((d, et), n)) (proj2 (in_enum _ _ _) Hk)) as N. cbn [fst snd] in N. rewrite (proj2 (peqb_iff (d, et) (d, et)) eq_refl) in N. discriminate.
Qed.

Theorem build_dofmap_ok : exists dm dofs num, (forall q, q < P -> build_dofmap_data P nbx tps lys reorder order q = Some (dm q, dofs q)) /\ dofmap_ok P tps lys dm dofs num.
Proof.
  destruct (maps_make_ok P nbx LS GL OW Hn HP inputs_dof) as (dm & Mdm & Hdm).
  assert (Hcell : forall q, q < P -> length (dofq q) = length lys /\
    (forall i ly rows, nth_error lys i = Some ly -> nth_error (dofq q) i = Some rows -> length rows = map_size (tp_map (tps q) (tp_dim (tps q)) i) /\ forall row, In row rows -> length row = ly_num ly) /\
    (forall i c p d t x j k et n, slot (tps q) lys i c p d t x j -> c < map_size (tp_map (tps q) (tp_dim (tps q)) i) -> nth_error rq0 k = Some ((d, et), n) -> nth_error (tp_types (tps q) d) et = Some t ->
       dof_at (dofq q) i c p (dofn rq0 tps q k n x j)) /\
    forall rows row v, In rows (dofq q) -> In row rows -> In v row -> v < tot rq0 tps q).
  { intros q Hq. destruct (basic_q q Hq) as (_ & Ed & _). destruct (required_q q Hq) as (_ & R). pose proof (dw_ok _ _ _ Hw q Hq) as Hok.
    destruct (cell_dofs_ok (tps q) lys rq0 Hok R) as (dofs & Ed' & Ld & Hs & Ha). rewrite Ed in Ed'. injection Ed' as <-. split; [exact Ld|]. split; [exact Hs|]. split; [exact Ha|].
    intros rows row dof H1 H2 H3. apply In_nth_error in H1 as (i & H1). apply In_nth_error in H2 as (c & H2). apply In_nth_error in H3 as (p & H3).
    pose proof (nth_error_bound _ _ _ H1) as B1. destruct (nth_error_lt lys i) as (ly & Ely); [lia|]. destruct (Hs i ly rows Ely H1) as (Lr & Hr).
    destruct (nth_error_lt (tp_types (tps q) (tp_dim (tps q))) i) as (ct & Ect); [rewrite <- (tk_layouts _ _ Hok); lia|].
    assert (Hp : p < ly_num ly) by (rewrite <- (Hr row (nth_error_In _ _ H2)); eapply nth_error_bound; eauto).
    assert (Hc : c < map_size (tp_map (tps q) (tp_dim (tps q)) i)) by (rewrite <- Lr; eapply nth_error_bound; eauto).
    destruct (position_slot (tps q) lys Hok i c p ct ly Ect Ely Hc Hp) as (d & t & x & j & Hslot).
    destruct (slot_req (tps q) lys rq0 Hok R i c p d t x j Hslot Hc) as (k & et & n & Hk & Ht & Hj & Hx).
    destruct (Ha i c p d t x j k et n Hslot Hc Hk Ht) as (rows' & row' & A1 & A2 & A3). rewrite H1 in A1. injection A1 as <-. rewrite H2 in A2. injection A2 as <-. rewrite H3 in A3. injection A3 as ->.
    exact (dof_total (tps q) rq0 k (d, et, n) x j Hk Hx Hj). }
  set (F := fun q => map (map (map (fun v => nth v (o2nq q) 0))) (dofq q)).
  assert (HF : forall q, q < P -> omap (omap (omap (nth_error (o2nq q)))) (dofq q) = Some (F q)).
  { intros q Hq. destruct (Hcell q Hq) as (_ & _ & _ & Hb). apply omap_map. intros rows Hrows. apply omap_map. intros row Hrow. apply omap_map. intros v Hv.
    apply nth_error_nth'. rewrite (o2n_len P rq0 tps o2nq ren_q q Hq). eauto. }
  assert (HFat : forall q i c p v w, dof_at (dofq q) i c p v -> nth_error (o2nq q) v = Some w -> dof_at (F q) i c p w).
  { intros q i c p v w (rows & row & A1 & A2 & A3) E. exists (map (map (fun v => nth v (o2nq q) 0)) rows), (map (fun v => nth v (o2nq q) 0) row).
    unfold F. rewrite !nth_error_map_some, A1, A2, A3. cbn [option_map]. rewrite (nth_error_nth _ _ 0 E). auto. }
  assert (Hsize : forall q, q < P -> map_size (dm q) = tot rq0 tps q).
  { intros q Hq. destruct (Hdm q Hq) as (_ & Eg & _ & Es & _). unfold map_size, num_ghosts. rewrite Es, Eg, LS_eq by exact Hq. rewrite (proj1 (proj2 (unowned_q q Hq))). pose proof (own_le P rq0 tps q Hq). lia. }
  assert (Hcan : forall q d et n x j g G, q < P -> carries (tps q) lys d et n -> local_to_global (tp_map (tps q) d et) x = Some g -> j < n -> local_to_global (dm q) (numq q d et x j) = Some G ->
     exists k o, nth_error rq0 k = Some ((d, et), n) /\ canon P rq0 tps emap o2nq k g j G o).
  { intros q d et n x j g G Hq Hc Hg Hj HG. destruct (carries_key q d et n Hq Hc) as (k & Hk). exists k.
    assert (Eem : emap k q = tp_map (tps q) d et) by (rewrite (emap_eq k q _ Hq Hk); reflexivity).
    assert (Hx : x < map_size (tp_map (tps q) d et)) by (rewrite <- Eem; apply (l2g_some (emap k q) (mo_range _ _ (emap_ok k (nth_error_bound _ _ _ Hk)) q Hq)); rewrite Eem; eauto).
    pose proof (num_eq q k d et n x j Hq Hk Hx Hj) as En. rewrite <- Eem in Hg, Hx.
    destruct (dof_facts P rq0 tps emap o2nq emap_ok emap_eq ren_q q k ((d, et), n) x j Hq Hk Hx Hj) as (g' & v & Hg' & Hv & Lv & _). cbn [snd] in Hv. rewrite En in Hv. injection Hv as <-. rewrite Hg in Hg'. injection Hg' as <-.
    destruct (canon_owner P rq0 emap emap_ok q k _ x g Hq Hk Hg) as (o & Ho & Hwo & Hown & Hgh). destruct (Hdm q Hq) as (_ & Eg & _ & Es & _).
    unfold local_to_global in HG. rewrite Es, LS_eq in HG by exact Hq. destruct (Nat.ltb_spec (numq q d et x j) (own rq0 tps q)) as [L|L].
    - injection HG as <-. destruct (Hown (proj1 Lv L)) as (-> & Ex). exists q. split; [exact Hk|]. exists ((d, et), n), (numq q d et x j). cbn [snd]. rewrite <- Ex.
      split; [exact Hk|]. split; [exact Hj|]. split; [exact Hq|]. split; [exact Hwo|]. split; [exact En|]. split; [exact L|]. rewrite (lo_is_sum P dm Mdm q Hq), (off_sum q Hq).
      rewrite (map_ext_in _ LS) by (intros s Hs; apply in_seq in Hs; destruct (Hdm s ltac:(lia)) as (_ & _ & _ & Es' & _); exact Es'). lia.
    - rewrite Eg in HG. destruct (unowned_q q Hq) as (_ & L1 & _ & Hm). assert (Lm : numq q d et x j - own rq0 tps q < tot rq0 tps q - own rq0 tps q) by (rewrite <- L1; eapply nth_error_bound; eauto).
      destruct (Hm _ Lm) as (G' & o' & HD & E1 & _). rewrite HG in E1. injection E1 as <-. exists o'. split; [exact Hk|].
      destruct HD as (k' & r' & x' & j' & g' & Hk' & Hx' & Hj' & Hv' & Hg' & HC). replace (own rq0 tps q + (numq q d et x j - own rq0 tps q)) with (numq q d et x j) in Hv' by lia.
      pose proof (o2n_inj P rq0 tps o2nq ren_q q _ _ _ Hq En Hv') as Ed. apply (dofn_inj P rq0 tps emap emap_eq q k ((d, et), n) x j k' r' x' j' Hq Hk Hx Hj Hk' Hx' Hj') in Ed. destruct Ed as (<- & <- & <-).
      rewrite Hg in Hg'. injection Hg' as <-. exact HC. }
  exists dm, F, numq. split.
  { intros q Hq. unfold build_dofmap_data. rewrite (proj1 (basic_q q Hq)). cbn [obind]. rewrite (proj1 (unowned_q q Hq)). cbn [obind]. fold LS GL OW. rewrite (proj1 (Hdm q Hq)). cbn [obind]. rewrite (HF q Hq). reflexivity. }
  constructor.
  - exact Mdm.
  - intros q Hq. destruct (Hcell q Hq) as (L & Hs & _). split; [unfold F; rewrite map_length; exact L|]. intros i ly rows Ely Er. unfold F in Er. rewrite nth_error_map_some in Er. destruct (nth_error (dofq q) i) as [rows0|] eqn:E0; [|discriminate]. cbn in Er. injection Er as <-.
    destruct (Hs i ly rows0 Ely E0) as (A & B). split; [rewrite map_length; exact A|]. intros row Hrow. apply in_map_iff in Hrow as (row0 & <- & H0). rewrite map_length. now apply B.
  - intros q i c p d t x j Hq Hc Hs. destruct (Hcell q Hq) as (_ & _ & Ha & _). destruct (required_q q Hq) as (_ & R).
    destruct (slot_req (tps q) lys rq0 (dw_ok _ _ _ Hw q Hq) R i c p d t x j Hs Hc) as (k & et & n & Hk & Ht & Hj & Hx). exists et, n. split; [exact Ht|]. split; [exact (key_carries q k d et n Hq Hk)|]. split; [exact Hx|]. split; [exact Hj|].
    eapply HFat; [exact (Ha i c p d t x j k et n Hs Hc Hk Ht)|now apply num_eq].
  - intros q d et n x j Hq Hc Hx Hj. destruct (carries_key q d et n Hq Hc) as (k & Hk). rewrite Hsize by exact Hq. pose proof (num_eq q k d et n x j Hq Hk Hx Hj) as E. destruct (ren_q q Hq) as (Pq & _).
    apply nth_error_In in E. rewrite Pq in E. apply in_seq in E. unfold de in E. rewrite dof_entities_len in E. unfold tot. lia.
  - intros q v Hq Hv. rewrite Hsize in Hv by exact Hq. destruct (ren_q q Hq) as (Pq & _). assert (Hin : In v (o2nq q)) by (rewrite Pq; apply in_seq; unfold de; rewrite dof_entities_len; fold (tot rq0 tps q); lia).
    apply In_nth_error in Hin as (i & Hi). assert (Hit : i < tot rq0 tps q) by (rewrite <- (o2n_len P rq0 tps o2nq ren_q q Hq); eapply nth_error_bound; eauto).
    destruct (index_facts P rq0 tps emap emap_eq q i Hq Hit) as (k & ((d, et), n) & x & j & Hk & Hx & Hj & ->). cbn [snd] in *. rewrite (emap_eq k q _ Hq Hk) in Hx. unfold req_map in Hx. cbn [fst snd] in Hx.
    exists d, et, n, x, j. split; [exact (key_carries q k d et n Hq Hk)|]. split; [exact Hx|]. split; [exact Hj|]. rewrite (num_eq q k d et n x j Hq Hk Hx Hj) in Hi. now injection Hi.
  - intros q q' d et n x j g G d' et' n' x' j' g' G' Hq Hq' Hc Hg Hj HG Hc' Hg' Hj' HG'.
    destruct (Hcan q d et n x j g G Hq Hc Hg Hj HG) as (k & o & Hk & HC). destruct (Hcan q' d' et' n' x' j' g' G' Hq' Hc' Hg' Hj' HG') as (k' & o' & Hk' & HC'). split.
    + intros <-. destruct (canon_inj _ _ _ _ _ _ _ _ _ HC HC') as (<- & <- & <-). rewrite Hk in Hk'. injection Hk' as <- <- <-. auto.
    + intros (<- & <- & <- & <-). assert (k' = k) as -> by (exact (key_inj k' k d et n' n Hk' Hk)). exact (proj1 (canon_fun P rq0 tps emap o2nq emap_ok k g j G o G' o' HC HC')).
  - intros q d et n x j g G s Hq Hs Hc Hg Hj HG. destruct (Hcan q d et n x j g G Hq Hc Hg Hj HG) as (k & o & Hk & HC). destruct (canon_range _ _ _ _ _ HC) as (Ho & R).
    assert (Hdo : owns (dm o) G). { unfold owns. rewrite (lo_is_sum P dm Mdm o Ho). rewrite seq_S, map_app, lsum_app in R. cbn [map Nat.add] in R. rewrite lsum_cons, lsum_nil in R.
      destruct (Hdm o Ho) as (_ & _ & _ & Es & _). rewrite <- Es in R. rewrite (map_ext_in (fun q => size_local (dm q)) LS) by (intros s' Hs'; apply in_seq in Hs'; destruct (Hdm s' ltac:(lia)) as (_ & _ & _ & Es' & _); exact Es').
      pose proof (lo_is_sum P dm Mdm o Ho) as El. rewrite (map_ext_in (fun q => size_local (dm q)) LS) in El by (intros s' Hs'; apply in_seq in Hs'; destruct (Hdm s' ltac:(lia)) as (_ & _ & _ & Es' & _); exact Es').
      unfold size_local in R. lia. }
    assert (Hde : owns (tp_map (tps o) d et) g) by (destruct HC as (r & v & _ & _ & _ & Hwn & _); rewrite (emap_eq k o _ Ho Hk) in Hwn; exact Hwn).
    assert (Mde : maps_ok P (fun r => tp_map (tps r) d et)) by (apply (dw_maps _ _ _ Hw d et n); exact (key_carries 0 k d et n HP Hk)).
    split; intros H.
    + rewrite (owner_unique P dm Mdm s o G Hs Ho H Hdo). exact Hde.
    + rewrite (owner_unique P _ Mde s o g Hs Ho H Hde). exact Hdo.
Qed.
End DofWorld.
