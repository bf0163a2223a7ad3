(** The results on dofmaps in the form of their statements. *)
From Verif Require Import Base BaseProofs IndexMap IndexMapSpec Nbx World WorldProofs CellTypes DofBuilder DofSpec DofReq DofCells DofBasic RenumSpec DofRenum DofWorld.
Open Scope nat_scope.

Lemma renumbering_ok sizes de dofmaps reorder owned : renum_input sizes de dofmaps ->
  owned_size sizes de = Some owned -> (forall f, reorder = Some f -> reorder_wf f owned) ->
  exists o2n, reordering_map sizes de dofmaps reorder = Some (o2n, owned) /\ renum_ok sizes de o2n owned.
Proof.
  intros Hin Ho Hre. rewrite (owned_size_ok sizes de dofmaps Hin) in Ho. injection Ho as <-. exact (reordering_ok sizes de dofmaps Hin reorder Hre).
Qed.

Lemma dof_at_fun dofs i c p v w : dof_at dofs i c p v -> dof_at dofs i c p w -> v = w.
Proof. intros (a & b & E1 & E2 & E3) (a' & b' & F1 & F2 & F3). congruence. Qed.

Lemma shared_dofs_ok tp lys : tp_ok tp lys ->
  exists rq dofs, required tp lys = Some rq /\ rq_ok tp lys rq /\ cell_dofs tp lys rq = Some dofs /\ length dofs = length lys /\
    (forall i ly rows, nth_error lys i = Some ly -> nth_error dofs i = Some rows ->
       length rows = map_size (tp_map tp (tp_dim tp) i) /\ forall row, In row rows -> length row = ly_num ly) /\
    (forall i c p d t x j, slot tp lys i c p d t x j -> c < map_size (tp_map tp (tp_dim tp) i) -> exists v, dof_at dofs i c p v) /\
    (forall i c p ly, nth_error lys i = Some ly -> c < map_size (tp_map tp (tp_dim tp) i) -> p < ly_num ly -> exists d t x j, slot tp lys i c p d t x j) /\
    (forall i c p d t x j v i' c' p' d' t' x' j' v', slot tp lys i c p d t x j -> c < map_size (tp_map tp (tp_dim tp) i) -> dof_at dofs i c p v ->
       slot tp lys i' c' p' d' t' x' j' -> c' < map_size (tp_map tp (tp_dim tp) i') -> dof_at dofs i' c' p' v' ->
       (v = v' <-> d = d' /\ t = t' /\ x = x' /\ j = j')) /\
    length (dof_entities tp rq) = lsum (map (fun r => snd r * map_size (tp_map tp (fst (fst r)) (snd (fst r)))) rq) /\
    (forall i c p d t x j v, slot tp lys i c p d t x j -> c < map_size (tp_map tp (tp_dim tp) i) -> dof_at dofs i c p v ->
       exists k et n, nth_error rq k = Some ((d, et), n) /\ nth_error (tp_types tp d) et = Some t /\ j < n /\ nth_error (dof_entities tp rq) v = Some (k, x) /\
         forall g, local_to_global (tp_map tp d et) x = Some g ->
           nth_error (old_globals tp rq) v = Some (lsum (firstn k (map (fun r => snd r * im_size_global (tp_map tp (fst (fst r)) (snd (fst r)))) rq)) + n * g + j)).
Proof.
  intros Hok. destruct (required_ok tp lys Hok) as (Er & Hrq). set (rq := req_list (tp_types tp) (tp_dim tp) lys) in *.
  destruct (cell_dofs_ok tp lys rq Hok Hrq) as (dofs & Ed & Ld & Hs & Ha). exists rq, dofs. split; [exact Er|]. split; [exact Hrq|]. split; [exact Ed|]. split; [exact Ld|]. split; [exact Hs|].
  assert (HA : forall i c p d t x j v, slot tp lys i c p d t x j -> c < map_size (tp_map tp (tp_dim tp) i) -> dof_at dofs i c p v ->
     exists k et n, nth_error rq k = Some ((d, et), n) /\ nth_error (tp_types tp d) et = Some t /\ j < n /\ x < map_size (tp_map tp d et) /\ v = off_at tp rq k + n * x + j).
  { intros i c p d t x j v Hsl Hc Hv. destruct (slot_req tp lys rq Hok Hrq i c p d t x j Hsl Hc) as (k & et & n & Hk & Ht & Hj & Hx). exists k, et, n.
    split; [exact Hk|]. split; [exact Ht|]. split; [exact Hj|]. split; [exact Hx|]. eapply dof_at_fun; [exact Hv|]. eapply Ha; eauto. }
  split.
  { intros i c p d t x j Hsl Hc. destruct (slot_req tp lys rq Hok Hrq i c p d t x j Hsl Hc) as (k & et & n & Hk & Ht & Hj & Hx). eexists. eapply Ha; eauto. }
  split.
  { intros i c p ly Hly Hc Hp. destruct (nth_error_lt (tp_types tp (tp_dim tp)) i) as (ct & Ect); [rewrite <- (tk_layouts _ _ Hok); eapply nth_error_bound; eauto|]. exact (position_slot tp lys Hok i c p ct ly Ect Hly Hc Hp). }
  split.
  { intros i c p d t x j v i' c' p' d' t' x' j' v' Hsl Hc Hv Hsl' Hc' Hv'.
    destruct (HA _ _ _ _ _ _ _ _ Hsl Hc Hv) as (k & et & n & Hk & Ht & Hj & Hx & ->). destruct (HA _ _ _ _ _ _ _ _ Hsl' Hc' Hv') as (k' & et' & n' & Hk' & Ht' & Hj' & Hx' & ->). split.
    - intros E. destruct (dof_inj tp rq k ((d, et), n) x j k' ((d', et'), n') x' j' Hk Hx Hj Hk' Hx' Hj' E) as (<- & <- & <-). rewrite Hk in Hk'. injection Hk' as <- <- <-. rewrite Ht in Ht'. injection Ht' as <-. auto.
    - intros (<- & <- & <- & <-). assert (Hd : d <= tp_dim tp).
      { destruct Hsl as (e & ds & Hon & _). exact (on_dim tp lys Hok i d e t ds Hon). }
      assert (et' = et) as ->. { exact (NoDup_nth_error_inj (tp_types tp d) et' et t (tk_types _ _ Hok d Hd) Ht' Ht). }
      destruct Hrq as (ND & _). assert (k' = k) as ->. { apply (NoDup_nth_error_inj (map fst rq) k' k (d, et) ND); rewrite nth_error_map_some; [rewrite Hk'|rewrite Hk]; reflexivity. }
      rewrite Hk in Hk'. injection Hk' as <-. reflexivity. }
  split; [apply dof_entities_len|].
  intros i c p d t x j v Hsl Hc Hv. destruct (HA _ _ _ _ _ _ _ _ Hsl Hc Hv) as (k & et & n & Hk & Ht & Hj & Hx & ->). exists k, et, n. split; [exact Hk|]. split; [exact Ht|]. split; [exact Hj|].
  split; [exact (dof_entities_nth tp rq k ((d, et), n) x j Hk Hx Hj)|]. intros g Hg. exact (old_globals_nth tp rq k ((d, et), n) x j g Hk Hg Hj).
Qed.

Lemma global_dofs_ok P nbx tps lys reorder order : nbx_oracle P nbx -> 0 < P -> dof_world P tps lys ->
  (forall rq q, required (tps 0) lys = Some rq -> q < P ->
     Permutation (order q) (seq 0 (length rq)) /\
     forall f, reorder q = Some f -> reorder_wf f (lsum (map (fun r => snd r * size_local (req_map (tps q) r)) rq))) ->
  exists dm dofs num, (forall q, q < P -> build_dofmap_data P nbx tps lys reorder order q = Some (dm q, dofs q)) /\ dofmap_ok P tps lys dm dofs num.
Proof.
  intros Hn HP Hw Ho. pose proof (proj1 (required_ok (tps 0) lys (dw_ok _ _ _ Hw 0 HP))) as Er. apply build_dofmap_ok; auto.
  - intros q f Hq Hf. exact (proj2 (Ho _ q Er Hq) f Hf).
  - intros q Hq. exact (proj1 (Ho _ q Er Hq)).
Qed.
