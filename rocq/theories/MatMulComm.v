(** Proofs about the communication in the distributed matrix product. *)
From Verif Require Import Base BaseProofs BucketProofs Algo AlgoProofs Nbx World WorldProofs IndexMap IndexMapSpec IndexMapProofs ImSharedProofs ScattererProofs RoundTrip
  SubMapProofs SparsityProofs MatrixCSR MatrixSpec MatrixProofs MatrixDense MatrixPar MatrixParSpec MatrixParProofs SpmvProofs Collectives MatTrans MatOpsSpec TransLocal TransCopy
  PatternMats MatMul.
From Verif Require VectorOpsProofs MultProofs TransProofs.
From Verif Require StackProofs.
Open Scope nat_scope.

(** ** Buckets by neighbour *)
Section Bucket.
Context {V : Type}.
Variables (srcs keys : list nat) (vs : list V).
Hypothesis Hs : StronglySorted lt srcs.
Hypothesis Hk : forall k, In k keys -> In k srcs.
Hypothesis Hl : length keys = length vs.
Definition nrk o := match index_in o srcs with Some k => k | None => 0 end.
Lemma nrk_ok o : In o srcs -> nth_error srcs (nrk o) = Some o.
Proof. intro H. unfold nrk. destruct (index_in_in _ _ H) as (k & E). rewrite E. now apply index_in_some. Qed.
Lemma nrk_omap : omap (find_sorted srcs) keys = Some (map nrk keys).
Proof.
  apply omap_map. intros o Ho. rewrite find_sorted_spec by exact Hs. unfold nrk. apply Hk in Ho. destruct (index_in_in _ _ Ho) as (k & ->). reflexivity.
Qed.
Notation items := (combine (map nrk keys) vs).
Notation n := (length srcs).
Lemma items_lt : Forall (fun kv : nat * V => fst kv < n) items.
Proof.
  apply Forall_forall. intros [k v] H. apply in_combine_l in H. apply in_map_iff in H as (o & <- & Ho). cbn. eapply nth_error_bound, nrk_ok, Hk, Ho.
Qed.
Lemma items_keys : map fst items = map nrk keys.
Proof. clear Hs Hk. assert (H : length (map nrk keys) = length vs) by (now rewrite map_length). revert H. generalize (map nrk keys) as a. clear. intro a. revert vs. induction a as [|x a IH]; intros [|y b] H; cbn in *; try discriminate; [reflexivity|]. f_equal. apply IH. lia. Qed.
Lemma vals_items k d : nth_error srcs k = Some d -> vals k items = vals d (combine keys vs).
Proof.
  intro Hd. clear Hl. revert Hk. generalize vs as w. induction keys as [|o t IH]; intros w Hk'; [reflexivity|]. destruct w as [|v w]; [reflexivity|].
  change (combine (map nrk (o :: t)) (v :: w)) with ([(nrk o, v)] ++ combine (map nrk t) w). change (combine (o :: t) (v :: w)) with ([(o, v)] ++ combine t w).
  rewrite !vals_app, !vals_one. cbn [fst snd]. f_equal; [|apply IH; intros; apply Hk'; now right].
  pose proof (nrk_ok o (Hk' o (or_introl eq_refl))) as En. destruct (Nat.eqb_spec (nrk o) k) as [E|N], (Nat.eqb_spec o d) as [E'|N']; try reflexivity.
  - exfalso. apply N'. rewrite E in En. congruence.
  - exfalso. apply N. subst o. eapply NoDup_nth_error_inj; [apply SS_lt_NoDup, Hs| |]; eauto.
Qed.
Lemma bucket_sizes : count_keys n (map nrk keys) = Some (map (fun d => length (vals d (combine keys vs))) srcs).
Proof.
  rewrite <- items_keys, count_keys_spec.
  - f_equal. rewrite map_vals_counts. apply map_seq_nth. intros k d Hd. now rewrite (vals_items k d Hd).
  - apply Forall_forall. intros k H. apply in_map_iff in H as (kv & <- & H). pose proof items_lt as HF. rewrite Forall_forall in HF. now apply HF.
Qed.
Lemma bucket_sizes' : map (fun d => length (vals d (combine keys vs))) srcs = map (fun k => length (vals k items)) (seq 0 n).
Proof. symmetry. apply map_seq_nth. intros k d Hd. now rewrite (vals_items k d Hd). Qed.
Definition grouped := concat (map (fun d => vals d (combine keys vs)) srcs).
Lemma grouped_items : grouped = concat (map (fun k => vals k items) (seq 0 n)).
Proof. unfold grouped. f_equal. symmetry. apply map_seq_nth. intros k d Hd. apply (vals_items k d Hd). Qed.
Lemma bucket_place (x : V) : let sz := map (fun d => length (vals d (combine keys vs))) srcs in
  exists pos', ofold place items (psums sz, repeat x (last (psums sz) 0)) = Some (pos', grouped).
Proof.
  intro sz. unfold sz. rewrite bucket_sizes', grouped_items. destruct (place_all n items (psums (map (fun k => length (vals k items)) (seq 0 n)))
     (repeat x (last (psums (map (fun k => length (vals k items)) (seq 0 n))) 0)) items_lt) as (pos & E & _).
  - intros k Hk'. apply psums_offk. lia.
  - rewrite repeat_length, last_psums, <- (map_map (fun k => vals k items) (@length _)), lsum_concat_length. apply vals_map_seq_total, items_lt.
  - eauto.
Qed.

(** The positions given to the items. *)
Definition pstep : list nat * list nat -> nat -> option (list nat * list nat) :=
  fun '(disp, perm) s => p <- nth_error disp s ;; disp' <- upd disp s (S p) ;; Some (disp', perm ++ [p]).
Lemma bucket_perm : let sz := map (fun d => length (vals d (combine keys vs))) srcs in
  exists disp perm, ofold pstep (map nrk keys) (psums sz, []) = Some (disp, perm) /\ length perm = length keys /\
    forall i p, nth_error perm i = Some p -> p < length grouped /\ nth_error grouped p = nth_error vs i.
Proof.
  intro sz. rewrite <- items_keys.
  destruct (ofold_prefix_ind pstep (fun ks st => exists its t, items = its ++ t /\ map fst its = ks /\ length (snd st) = length its /\
      (forall k, k < n -> nth_error (fst st) k = Some (offk n items k + length (vals k its))) /\
      forall i p, nth_error (snd st) i = Some p -> p < length grouped /\ nth_error grouped p = nth_error vs i) (map fst items) (psums sz, [])) as ([disp perm] & E & (its & t & Ei & Ek & Hlen & _ & Hp)).
  - exists [], items. do 3 (split; [reflexivity|]). split.
    + intros k Hk'. unfold sz. rewrite bucket_sizes'. cbn [fst]. rewrite psums_offk by lia. cbn. f_equal. lia.
    + intros i p H. destruct i; discriminate.
  - intros pk a qk [disp perm] Ea (its & t & Ei & Ek & Hlen & Hd & Hp). cbn [fst snd] in *.
    assert (Et : exists v t', t = (a, v) :: t').
    { rewrite Ei, map_app, Ek in Ea. apply app_inv_head in Ea. destruct t as [|[a' v] t']; [discriminate|]. cbn in Ea. injection Ea as -> _. eauto. }
    destruct Et as (v & t' & ->). assert (Ha : a < n).
    { pose proof items_lt as HF. rewrite Forall_forall in HF. apply (HF (a, v)). rewrite Ei. apply in_or_app. right. now left. }
    unfold pstep. rewrite (Hd a Ha). cbn [obind]. destruct (upd_some disp a (S (offk n items a + length (vals a its)))) as (disp' & Eu).
    { eapply nth_error_bound, Hd, Ha. }
    rewrite Eu. cbn [obind]. eexists. split; [reflexivity|]. exists (its ++ [(a, v)]), t'. cbn [fst snd]. split; [now rewrite <- app_assoc|]. split; [rewrite map_app, Ek; reflexivity|].
    split; [rewrite !app_length; cbn; lia|]. split.
    + intros k Hk'. rewrite vals_app, vals_one, app_length. cbn [fst snd]. rewrite (upd_nth _ _ _ k _ Eu). destruct (Nat.eqb_spec a k) as [->|N].
      * f_equal. cbn. lia.
      * rewrite Hd by exact Hk'. f_equal. cbn. lia.
    + intros i p Hi. destruct (lt_dec i (length perm)) as [L|L]; [rewrite nth_error_app1 in Hi by exact L; now apply Hp|].
      assert (i = length perm) as ->. { apply nth_error_bound in Hi. rewrite app_length in Hi. cbn in Hi. lia. }
      rewrite nth_error_app2, Nat.sub_diag in Hi by lia. cbn in Hi. injection Hi as <-.
      assert (Ev : nth_error (vals a items) (length (vals a its)) = Some v).
      { rewrite Ei, vals_app, nth_error_app2, Nat.sub_diag by lia. change ((a, v) :: t') with ([(a, v)] ++ t'). rewrite vals_app, vals_one. cbn [fst snd]. rewrite Nat.eqb_refl. reflexivity. }
      assert (Evs : nth_error vs (length perm) = Some v).
      { assert (En : nth_error items (length its) = Some (a, v)) by (rewrite Ei, nth_error_app2, Nat.sub_diag by lia; reflexivity).
        rewrite Hlen. rewrite TransProofs.combine_nth_error in En. destruct (nth_error (map nrk keys) (length its)); [|discriminate].
        destruct (nth_error vs (length its)); [congruence|discriminate]. }
      assert (Eg : nth_error grouped (offk n items a + length (vals a its)) = Some v).
      { rewrite grouped_items. unfold offk. rewrite <- (map_map (fun k => vals k items) (@length _)).
        rewrite (nth_error_concat _ a (vals a items)); [exact Ev| |eapply nth_error_bound; eauto]. rewrite nth_error_map_some, nth_error_seq by exact Ha. reflexivity. }
      split; [eapply nth_error_bound; eauto|]. now rewrite Eg, Evs.
  - exists disp, perm. split; [exact E|]. cbn [snd] in *. split; [|exact Hp]. rewrite Hlen, <- (map_length fst its), Ek, items_keys. apply map_length.
Qed.
End Bucket.

Lemma grouped_perm srcs keys (vs : list nat) : NoDup srcs -> (forall k, In k keys -> In k srcs) -> length keys = length vs -> Permutation vs (grouped srcs keys vs).
Proof.
  intros Hn Hk Hl. pose proof (groups_perm srcs (combine keys vs) Hn) as H. apply (Permutation_map snd) in H.
  - replace (map snd (combine keys vs)) with vs in H.
    + rewrite concat_map, map_map in H. unfold grouped. erewrite map_ext in H; [exact H|]. intro k. unfold pack. rewrite map_map. apply map_id.
    + clear -Hl. revert vs Hl. induction keys as [|k t IH]; intros [|v w] Hl; cbn in *; try discriminate; [reflexivity|]. f_equal. apply IH. lia.
  - intros [k v] Hin. apply Hk. eapply in_combine_l; eauto.
Qed.

Lemma lsum_perm l l' : Permutation l l' -> lsum l = lsum l'.
Proof. induction 1; rewrite ?lsum_cons; lia. Qed.
Lemma firstn_S_nth {A} (l : list A) n x : nth_error l n = Some x -> firstn (S n) l = firstn n l ++ [x].
Proof. revert n. induction l as [|y t IH]; intros [|n] H; cbn in H; try discriminate; [now injection H as ->|]. cbn [firstn app]. f_equal. now apply IH. Qed.

(** ** Rows of the right factor *)
Section Comm.
Context {T : Type} (zero : T).
Variables (P : nat) (nbx : (nat -> list nat) -> nat -> list nat).
Variables (A1 B0 B1 : nat -> imap) (matsB : nat -> csr T).
Hypothesis HP : 0 < P.
Hypothesis Hnbx : nbx_oracle P nbx.
Hypothesis HokA : maps_ok P A1.
Hypothesis HokR : maps_ok P B0.
Hypothesis HokC : maps_ok P B1.
Hypothesis HmB : mats_ok P B0 B1 1 1 matsB.
Hypothesis Hsame : same_ranges P B0 A1.
Notation src q := (im_src (A1 q)).
Notation dest q := (im_dest (A1 q)).
Notation ow q := (im_owners (A1 q)).
Notation gh q := (im_ghosts (A1 q)).
Notation rws q := (rowsof (matsB q)).

Lemma A_facts q : q < P -> StronglySorted lt (src q) /\ (forall o, In o (ow q) -> In o (src q)) /\ length (ow q) = length (gh q).
Proof.
  intro Hq. destruct (mo_src _ _ HokA q Hq) as (Hss & Hsi). split; [exact Hss|]. split; [|apply (mo_len _ _ HokA q Hq)]. intros o. apply Hsi.
Qed.
Definition Rq q d := vals d (combine (ow q) (gh q)).
Definition gl q := concat (map (Rq q) (src q)).
Lemma request_ok q : q < P -> row_request A1 q = Some (gl q, (map (fun d => length (Rq q d)) (src q), psums (map (fun d => length (Rq q d)) (src q)))).
Proof.
  intro Hq. destruct (A_facts q Hq) as (Hs & Hk & Hl). unfold row_request. rewrite (nrk_omap _ _ Hs Hk). cbn [obind]. rewrite (bucket_sizes _ _ _ Hs Hk Hl). cbn [obind].
  destruct (bucket_place _ _ _ Hs Hk Hl 0) as (pos' & E). rewrite E. reflexivity.
Qed.
Lemma perm_ok q : q < P -> exists perm, request_perm A1 q = Some perm /\ length perm = length (gh q) /\
  forall i p, nth_error perm i = Some p -> p < length (gl q) /\ nth_error (gl q) p = nth_error (gh q) i.
Proof.
  intro Hq. destruct (A_facts q Hq) as (Hs & Hk & Hl). unfold request_perm. rewrite (nrk_omap _ _ Hs Hk). cbn [obind]. rewrite (bucket_sizes _ _ _ Hs Hk Hl). cbn [obind].
  destruct (bucket_perm _ _ _ Hs Hk Hl) as (disp & perm & E & L & H). fold pstep. rewrite E. exists perm. split; [reflexivity|]. split; [lia|exact H].
Qed.
Lemma gl_perm q : q < P -> Permutation (gh q) (gl q).
Proof. intro Hq. destruct (A_facts q Hq) as (Hs & Hk & Hl). apply grouped_perm; auto. now apply SS_lt_NoDup. Qed.

Lemma Rq_in q d g : q < P -> In g (Rq q d) -> d < P /\ d <> q /\ owns (A1 d) g /\ owns (B0 d) g /\ In g (gh q).
Proof.
  intros Hq H. unfold Rq, vals in H. apply in_map_iff in H as ([o g'] & E & H). cbn in E. subst g'. apply filter_In in H as (H & E). cbn in E. apply Nat.eqb_eq in E. subst o.
  apply In_nth_error in H as (k & Ek). rewrite TransProofs.combine_nth_error in Ek. destruct (nth_error (ow q) k) as [o|] eqn:Eo; [|discriminate]. destruct (nth_error (gh q) k) as [g'|] eqn:Eg; [|discriminate].
  injection Ek as -> ->. destruct (mo_owner _ _ HokA q k g d Hq Eg Eo) as (X & Y & Z). do 3 (split; [assumption|]). split; [|eapply nth_error_In; eauto].
  destruct (Hsame d X) as (E1 & E2). unfold owns in *. now rewrite E1, E2.
Qed.

Lemma B_rows q : q < P -> mt_cols (matsB q) = concat (rws q) /\ mt_rp (matsB q) = psums (map (@length nat) (rws q)) /\
  Forall (StronglySorted lt) (rws q) /\ length (rws q) = size_local (B0 q) + num_ghosts (B0 q).
Proof. intro Hq. eapply rows_ok; eauto. Qed.

Definition ocol q c := if c <? size_local (B1 q) then q else nth (c - size_local (B1 q)) (im_owners (B1 q)) 0.
(** Row [i] of rank [q]: value, global column, owner. *)
Definition BR q i : list (T * (nat * nat)) := map (fun c => (nth (pos (rws q) i c) (mt_data (matsB q)) zero, (gcol B1 q c, ocol q c))) (R (rws q) i).

Lemma B_at q i t c : q < P -> i < length (rws q) -> nth_error (R (rws q) i) t = Some c ->
  nth_error (mt_cols (matsB q)) (off (rws q) i + t) = Some c /\ off (rws q) i + t = pos (rws q) i c /\
  nth_error (mt_data (matsB q)) (off (rws q) i + t) = Some (nth (pos (rws q) i c) (mt_data (matsB q)) zero) /\
  c < size_local (B1 q) + num_ghosts (B1 q) /\ local_to_global (B1 q) c = Some (gcol B1 q c) /\
  (if c <? size_local (B1 q) then Some q else nth_error (im_owners (B1 q)) (c - size_local (B1 q))) = Some (ocol q c).
Proof.
  intros Hq Hi Ht. destruct (B_rows q Hq) as (E1 & E2 & E3 & E4). assert (Hin : In c (R (rws q) i)) by (eapply nth_error_In; eauto).
  assert (Ep : off (rws q) i + t = pos (rws q) i c). { unfold pos, idx. now rewrite (index_in_nth _ _ _ (SS_lt_NoDup _ (R_sorted _ E3 i)) Ht). }
  assert (Ec : nth_error (mt_cols (matsB q)) (off (rws q) i + t) = Some c) by (rewrite Ep, E1; now apply pos_nth).
  split; [exact Ec|]. split; [exact Ep|]. split.
  { rewrite Ep. apply nth_error_nth_some. rewrite (data_ok P B0 B1 1 1 matsB HmB q Hq), !Nat.mul_1_r. now apply pos_lt. }
  assert (Hc : c < size_local (B1 q) + num_ghosts (B1 q)) by (apply (mk_cols _ _ _ _ _ _ HmB q c Hq); eapply nth_error_In; eauto).
  split; [exact Hc|]. split; [eapply gcol_ok; eauto|]. unfold ocol. destruct (Nat.ltb_spec c (size_local (B1 q))) as [L|L]; [reflexivity|].
  apply nth_error_nth_some. rewrite (mo_len _ _ HokC q Hq). unfold num_ghosts in Hc. lia.
Qed.

Lemma packed_ok q i : q < P -> i < length (rws q) -> packed_row B1 matsB q i = Some (BR q i).
Proof.
  intros Hq Hi. destruct (B_rows q Hq) as (E1 & E2 & E3 & E4). unfold packed_row. rewrite E2, !rp_nth by lia. cbn [obind].
  rewrite off_S by exact Hi. replace (off (rws q) i + length (R (rws q) i) - off (rws q) i) with (length (R (rws q) i)) by lia.
  rewrite (VectorOpsProofs.seq_shift_map (off (rws q) i)). rewrite omap_map with (g := fun k => (nth k (mt_data (matsB q)) zero, (gcol B1 q (nth k (mt_cols (matsB q)) 0), ocol q (nth k (mt_cols (matsB q)) 0)))).
  - f_equal. rewrite map_map. unfold BR. apply map_seq_nth. intros t c Ht. destruct (B_at q i t c Hq Hi Ht) as (X1 & X2 & X3 & _). rewrite (nth_error_nth _ _ 0 X1), X2. reflexivity.
  - intros k Hk. apply in_map_iff in Hk as (t & <- & Hk). apply in_seq in Hk. destruct (nth_error_lt (R (rws q) i) t ltac:(lia)) as (c & Ht).
    destruct (B_at q i t c Hq Hi Ht) as (X1 & X2 & X3 & X4 & X5 & X6). rewrite X1, X3. cbn [obind]. rewrite X5. cbn [obind]. rewrite X6. cbn [obind].
    rewrite (nth_error_nth _ _ 0 X1), X2. reflexivity.
Qed.

Lemma g2l_index_l2g m c g : im_lo m <= im_hi m -> NoDup (im_ghosts m) -> (forall g, In g (im_ghosts m) -> ~ owns m g) -> local_to_global m c = Some g -> g2l_index m g = Some c.
Proof.
  intros H1 H2 H3 H. unfold g2l_index. rewrite (g2l_l2g m H1 H2 H3 _ _ H). cbn zeta. destruct (Z.ltb_spec (Z.of_nat c) 0); [lia|]. now rewrite Nat2Z.id.
Qed.
Lemma g2l_index_ok maps q c g : maps_ok P maps -> q < P -> local_to_global (maps q) c = Some g -> g2l_index (maps q) g = Some c.
Proof.
  intros Hok Hq. apply g2l_index_l2g; [apply (mo_range _ _ Hok q Hq)|apply (mo_once _ _ Hok q Hq)|]. intros; now apply (ghost_not_owned P maps Hok).
Qed.

Definition loc q g := g - im_lo (B0 q).
Lemma wanted_ok q : q < P -> rows_wanted P A1 B0 q = Some (map (loc q) (concat (map (fun s => Rq s q) (dest q))), map (fun s => length (Rq s q)) (dest q)).
Proof.
  intro Hq. unfold rows_wanted. rewrite (exchange_spec P (fun q => dest q) (fun q => src q) (row_request A1) Rq q).
  - cbn [obind]. rewrite omap_map with (g := loc q); [reflexivity|]. intros g Hg. apply in_concat in Hg as (l & Hl & Hg). apply in_map_iff in Hl as (s & <- & Hs).
    assert (Hs' : s < P) by (now apply (dest_iff P A1 HokA) in Hs). destruct (Rq_in s q g Hs' Hg) as (_ & _ & _ & Ho & _). apply (g2l_index_ok B0); [exact HokR|exact Hq|].
    unfold owns in Ho. rewrite l2g_own by (unfold loc, size_local; lia). f_equal. unfold loc. lia.
  - apply src_dest_graph. exact HokA.
  - exact Hq.
  - intros s Hs. apply request_ok. now apply (dest_iff P A1 HokA) in Hs.
Qed.

Definition rowsfor q d := map (fun g => BR q (loc q g)) (Rq d q).
Definition Rp q d := concat (rowsfor q d).
Lemma wanted_rows q : q < P -> omap (packed_row B1 matsB q) (map (loc q) (concat (map (fun s => Rq s q) (dest q)))) = Some (concat (map (rowsfor q) (dest q))).
Proof.
  intro Hq. rewrite omap_map with (g := BR q).
  - f_equal. rewrite map_map, concat_map, map_map. reflexivity.
  - intros i Hi. apply in_map_iff in Hi as (g & <- & Hg). apply in_concat in Hg as (l & Hl & Hg). apply in_map_iff in Hl as (s & <- & Hs).
    assert (Hs' : s < P) by (now apply (dest_iff P A1 HokA) in Hs). destruct (Rq_in s q g Hs' Hg) as (_ & _ & _ & Ho & _). apply packed_ok; [exact Hq|].
    destruct (B_rows q Hq) as (_ & _ & _ & E4). unfold owns in Ho. unfold loc, size_local in *. lia.
Qed.
Lemma reply_ok q : q < P -> row_reply P A1 B0 B1 matsB q = Some (concat (map (Rp q) (dest q)), (map (fun d => length (Rp q d)) (dest q), psums (map (fun d => length (Rp q d)) (dest q)))).
Proof.
  intro Hq. unfold row_reply. rewrite wanted_ok by exact Hq. cbn [obind]. rewrite wanted_rows by exact Hq. cbn [obind].
  rewrite omap_map with (g := fun p => length (Rp q (nth p (dest q) 0))).
  - cbn [obind]. replace (map (fun p => length (Rp q (nth p (dest q) 0))) (seq 0 (length (dest q)))) with (map (fun d => length (Rp q d)) (dest q)).
    + do 2 f_equal. apply concat_concat_map.
    + symmetry. apply map_seq_nth. intros k d Hd. now rewrite (nth_error_nth _ _ 0 Hd).
  - intros p Hp. apply in_seq in Hp. assert (Ep : nth_error (dest q) p = Some (nth p (dest q) 0)) by (apply nth_error_nth_some; lia).
    replace (map (fun s => length (Rq s q)) (dest q)) with (map (@length _) (map (rowsfor q) (dest q))).
    + rewrite (slice_at_concat (map (rowsfor q) (dest q)) p (rowsfor q (nth p (dest q) 0))) by (rewrite nth_error_map_some, Ep; reflexivity).
      cbn [obind]. f_equal. unfold Rp. apply lsum_concat_length.
    + rewrite map_map. apply map_ext. intro s. unfold rowsfor. now rewrite map_length.
Qed.
Lemma src_lt q d : q < P -> In d (src q) -> d < P.
Proof. intros Hq H. apply (mo_src _ _ HokA q Hq) in H. apply In_nth_error in H as (k & Hk). destruct (nth_error_lt (gh q) k) as (g & Hg); [rewrite <- (mo_len _ _ HokA q Hq); eapply nth_error_bound; eauto|].
  now destruct (mo_owner _ _ HokA q k g d Hq Hg Hk). Qed.

(** The row of global index [g], as held by its owner. *)
Definition own g := match find (fun q => (im_lo (B0 q) <=? g) && (g <? im_hi (B0 q))) (seq 0 P) with Some q => q | None => 0 end.
Definition BROW g := BR (own g) (loc (own g) g).
Lemma own_ok q g : q < P -> owns (B0 q) g -> own g = q.
Proof. intros Hq Ho. unfold own. now rewrite (MultProofs.find_owner P B0 HokR q g Hq Ho). Qed.
Lemma rowsfor_BROW q d : d < P -> rowsfor q d = map BROW (Rq d q).
Proof.
  intro Hd. apply map_ext_in. intros g Hg. destruct (Rq_in d q g Hd Hg) as (Hq & _ & _ & Ho & _). unfold BROW. now rewrite (own_ok q g Hq Ho).
Qed.

Lemma fetched_ok r : r < P -> fetched P A1 B0 B1 matsB r = Some (concat (map BROW (gl r))).
Proof.
  intro Hr. unfold fetched. rewrite (exchange_spec P (fun q => src q) (fun q => dest q) (row_reply P A1 B0 B1 matsB) Rp r).
  - cbn [obind]. f_equal. unfold gl. rewrite concat_map, map_map, concat_concat_map. f_equal. apply map_ext_in. intros s Hs. unfold Rp. now rewrite (rowsfor_BROW s r Hr).
  - apply graph_ok_sym, src_dest_graph. exact HokA.
  - exact Hr.
  - intros s Hs. apply reply_ok. eapply src_lt; eauto.
Qed.
Lemma sizes_ok r : r < P -> fetched_sizes P A1 B0 B1 matsB r = Some (map (fun g => length (BROW g)) (gl r)).
Proof.
  intro Hr. unfold fetched_sizes. rewrite (neigh_alltoallv_spec P (fun q => src q) (fun q => dest q) _ _ (fun q d => map (@length _) (rowsfor q d)) r).
  - f_equal. unfold gl. rewrite concat_map, map_map. f_equal. apply map_ext_in. intros s Hs. rewrite (rowsfor_BROW s r Hr), map_map. reflexivity.
  - apply graph_ok_sym, src_dest_graph. exact HokA.
  - exact Hr.
  - intros s Hs. assert (Hs' : s < P) by (eapply src_lt; eauto). unfold size_reply. rewrite wanted_ok by exact Hs'. cbn [obind]. rewrite wanted_rows by exact Hs'. cbn [obind].
    rewrite concat_map, map_map. do 2 f_equal. f_equal; [|f_equal]; apply map_ext; intro d; unfold rowsfor; now rewrite !map_length.
  - rewrite request_ok by exact Hr. cbn [obind]. f_equal. apply map_ext_in. intros s Hs. unfold rowsfor. now rewrite !map_length.
Qed.

Lemma gh_owner q g : q < P -> In g (gh q) -> own g < P /\ owns (B0 (own g)) g /\ loc (own g) g < size_local (B0 (own g)).
Proof.
  intros Hq Hg. destruct (ghost_owner P A1 HokA q g Hq Hg) as (o & k & Ho & _ & Hw & _). destruct (Hsame o Ho) as (E1 & E2).
  assert (Hw' : owns (B0 o) g) by (unfold owns in *; now rewrite E1, E2). rewrite (own_ok o g Ho Hw'). split; [exact Ho|]. split; [exact Hw'|]. unfold owns in Hw'. unfold loc, size_local. lia.
Qed.
Lemma BR_in q i it : q < P -> i < length (rws q) -> In it (BR q i) -> exists c, In c (R (rws q) i) /\ it = (nth (pos (rws q) i c) (mt_data (matsB q)) zero, (gcol B1 q c, ocol q c)) /\
  local_to_global (B1 q) c = Some (gcol B1 q c) /\ ocol q c < P /\ owns (B1 (ocol q c)) (gcol B1 q c).
Proof.
  intros Hq Hi H. apply in_map_iff in H as (c & <- & Hc). exists c. split; [exact Hc|]. split; [reflexivity|]. destruct (In_nth_error _ _ Hc) as (t & Ht).
  destruct (B_at q i t c Hq Hi Ht) as (_ & _ & _ & Hb & El & Eo). split; [exact El|]. destruct (Nat.ltb_spec c (size_local (B1 q))) as [L|L].
  - assert (ocol q c = q) as -> by congruence. split; [exact Hq|]. rewrite l2g_own in El by exact L. assert (gcol B1 q c = im_lo (B1 q) + c) as -> by congruence. unfold owns. unfold size_local in L. lia.
  - unfold local_to_global in El. destruct (Nat.ltb_spec c (size_local (B1 q))); [lia|]. destruct (mo_owner _ _ HokC q _ _ _ Hq El Eo) as (X & _ & Z). auto.
Qed.
Lemma fetched_in r it : r < P -> In it (concat (map BROW (gl r))) -> snd (snd it) < P /\ owns (B1 (snd (snd it))) (fst (snd it)).
Proof.
  intros Hr H. apply in_concat in H as (l & Hl & H). apply in_map_iff in Hl as (g & <- & Hg). apply (Permutation_in _ (Permutation_sym (gl_perm r Hr))) in Hg.
  destruct (gh_owner r g Hr Hg) as (Ho & Hw & Hi). destruct (B_rows _ Ho) as (_ & _ & _ & E4). destruct (BR_in (own g) (loc (own g) g) it Ho ltac:(lia) H) as (c & _ & -> & _ & X & Y). auto.
Qed.

(** ** The column map *)
Lemma fast_ghosts r : r < P -> mm_fast P A1 r = true -> gh r = [].
Proof.
  intros Hr Hf. destruct (gh r) as [|g l] eqn:E; [reflexivity|]. exfalso. assert (Hg : In g (gh r)) by (rewrite E; now left).
  destruct (ghost_owner P A1 HokA r g Hr Hg) as (o & k & Ho & Hne & _ & Hio & _). unfold mm_fast in Hf. apply Bool.orb_true_iff in Hf as [Hf|Hf].
  - apply Nat.eqb_eq in Hf. lia.
  - apply (mo_src _ _ HokA r Hr) in Hio. unfold isolated in Hf. destruct (im_src (A1 r)); [destruct Hio|]. discriminate.
Qed.
Lemma fast_gl r : r < P -> mm_fast P A1 r = true -> gl r = [].
Proof. intros Hr Hf. pose proof (gl_perm r Hr) as H. rewrite (fast_ghosts r Hr Hf) in H. now apply Permutation_nil in H. Qed.

Definition Bex r := combine (im_ghosts (B1 r)) (im_owners (B1 r)).
Definition CG r := if mm_fast P A1 r then Bex r else
  sort_uniq_pairs (filter (fun p : nat * nat => negb ((im_lo (B1 r) <=? fst p) && (fst p <? im_hi (B1 r)))) (map snd (concat (map BROW (gl r)))) ++ Bex r).
Lemma CG_ok r : r < P -> mm_ghosts P A1 B0 B1 matsB r = Some (CG r).
Proof. intro Hr. unfold mm_ghosts, CG, Bex. destruct (mm_fast P A1 r); [reflexivity|]. rewrite fetched_ok by exact Hr. reflexivity. Qed.
Lemma Bex_in r h o : r < P -> In (h, o) (Bex r) -> o < P /\ o <> r /\ owns (B1 o) h.
Proof.
  intros Hr H. apply In_nth_error in H as (k & H). unfold Bex in H. rewrite TransProofs.combine_nth_error in H. destruct (nth_error (im_ghosts (B1 r)) k) as [g|] eqn:Eg; [|discriminate].
  destruct (nth_error (im_owners (B1 r)) k) as [o'|] eqn:Eo; [|discriminate]. injection H as -> ->. exact (mo_owner _ _ HokC r k h o Hr Eg Eo).
Qed.
Lemma Bex_fst r : r < P -> map fst (Bex r) = im_ghosts (B1 r).
Proof.
  intro Hr. unfold Bex. pose proof (mo_len _ _ HokC r Hr) as Hl. revert Hl. generalize (im_owners (B1 r)) as b. generalize (im_ghosts (B1 r)) as a.
  induction a as [|x a IH]; intros [|y b] Hl; cbn in *; try discriminate; [reflexivity|]. f_equal. apply IH. lia.
Qed.
Lemma CG_owner r h o : r < P -> In (h, o) (CG r) -> o < P /\ o <> r /\ owns (B1 o) h.
Proof.
  intros Hr H. unfold CG in H. destruct (mm_fast P A1 r); [now apply Bex_in|]. apply sort_uniq_pairs_in, in_app_or in H as [H|H]; [|now apply Bex_in].
  apply filter_In in H as (H & Hn). apply in_map_iff in H as (it & E & H). destruct (fetched_in r it Hr H) as (X & Y). rewrite E in X, Y. cbn [fst snd] in *. split; [exact X|]. split; [|exact Y].
  intros ->. apply Bool.negb_true_iff, Bool.andb_false_iff in Hn. rewrite Nat.leb_gt, Nat.ltb_ge in Hn. unfold owns in Y. lia.
Qed.
Lemma CG_nodup r : r < P -> NoDup (map fst (CG r)).
Proof.
  intro Hr. assert (H : forall G s s', In (G, s) (CG r) -> In (G, s') (CG r) -> s = s').
  { intros G s s' H1 H2. apply CG_owner in H1 as (X1 & _ & X2); [|exact Hr]. apply CG_owner in H2 as (Y1 & _ & Y2); [|exact Hr]. eapply (owner_unique P B1 HokC); eauto. }
  unfold CG in *. destruct (mm_fast P A1 r); [rewrite Bex_fst by exact Hr; apply (mo_once _ _ HokC r Hr)|].
  match goal with |- NoDup (map fst (sort_uniq_pairs ?l)) => pose proof (sort_uniq_pairs_sorted l) as Hs; set (L := sort_uniq_pairs l) in *; clearbody L end.
  apply SS_lt_NoDup. induction Hs as [|[G s] l Hl IH Hf]; [constructor|]. cbn [map]. constructor.
  - apply IH. intros G' s1 s2 H1 H2. eapply H; right; eauto.
  - apply Forall_forall. intros G' HG. apply in_map_iff in HG as ([G1 s1] & <- & HG). rewrite Forall_forall in Hf. destruct (Hf _ HG) as [L|(E & L)]; cbn in *; [exact L|].
    subst G1. assert (s = s1) by (eapply H; [left; reflexivity|right; eauto]). lia.
Qed.
Lemma CG_has_B r g : r < P -> In g (im_ghosts (B1 r)) -> In g (map fst (CG r)).
Proof.
  intros Hr Hg. rewrite <- Bex_fst in Hg by exact Hr. unfold CG. destruct (mm_fast P A1 r); [exact Hg|]. apply in_map_iff in Hg as (x & <- & Hx). apply in_map. apply sort_uniq_pairs_in, in_or_app. now right.
Qed.
Lemma CG_has_fetched r it : r < P -> In it (concat (map BROW (gl r))) -> owns (B1 r) (fst (snd it)) \/ In (fst (snd it)) (map fst (CG r)).
Proof.
  intros Hr H. destruct (mm_fast P A1 r) eqn:Ef; [rewrite (fast_gl r Hr Ef) in H; destruct H|].
  destruct (Bool.bool_dec ((im_lo (B1 r) <=? fst (snd it)) && (fst (snd it) <? im_hi (B1 r))) true) as [E|E].
  - left. apply Bool.andb_true_iff in E. rewrite Nat.leb_le, Nat.ltb_lt in E. exact E.
  - right. unfold CG. rewrite Ef. apply in_map. apply sort_uniq_pairs_in, in_or_app. left. apply filter_In. split; [now apply in_map|]. apply Bool.negb_true_iff. now apply Bool.not_true_is_false.
Qed.

Definition cmap := built P nbx (fun q => size_local (B1 q)) (fun q => match mm_ghosts P A1 B0 B1 matsB q with Some l => map fst l | None => [] end)
    (fun q => match mm_ghosts P A1 B0 B1 matsB q with Some l => map snd l | None => [] end).
Lemma cmap_inputs : inputs_ok P (fun q => size_local (B1 q)) (fun q => match mm_ghosts P A1 B0 B1 matsB q with Some l => map fst l | None => [] end)
    (fun q => match mm_ghosts P A1 B0 B1 matsB q with Some l => map snd l | None => [] end).
Proof.
  intros r Hr. rewrite CG_ok by exact Hr. split; [now rewrite !map_length|]. split; [now apply CG_nodup|].
  intros k G s HG Hs. rewrite nth_error_map_some in HG, Hs. destruct (nth_error (CG r) k) as [[G' s']|] eqn:E; [|discriminate]. cbn in HG, Hs. injection HG as ->. injection Hs as ->.
  apply nth_error_In, CG_owner in E as (X & N & O); [|exact Hr]. split; [exact X|]. split; [exact N|]. unfold owns in O.
  rewrite seq_S, map_app, lsum_app. cbn [map]. rewrite lsum_cons, lsum_nil, <- (lo_is_sum P B1 HokC s X). cbn. unfold size_local. lia.
Qed.
Lemma cmap_facts : maps_ok P cmap /\ forall r, r < P -> mm_col_map P nbx A1 B0 B1 matsB r = Some (cmap r) /\ im_ghosts (cmap r) = map fst (CG r) /\
  im_lo (cmap r) = im_lo (B1 r) /\ im_hi (cmap r) = im_hi (B1 r).
Proof.
  destruct (built_ok P nbx Hnbx _ _ _ cmap_inputs HP) as (Hok & H). fold cmap in Hok, H. split; [exact Hok|]. intros r Hr. destruct (H r Hr) as (X & G & _ & S & _).
  split. { unfold mm_col_map. rewrite CG_ok by exact Hr. exact X. }
  split; [rewrite G, CG_ok by exact Hr; reflexivity|].
  assert (Elo : im_lo (cmap r) = im_lo (B1 r)).
  { rewrite (lo_is_sum P cmap Hok r Hr), (lo_is_sum P B1 HokC r Hr). f_equal. apply map_ext_in. intros q Hq. apply in_seq in Hq. apply H. lia. }
  split; [exact Elo|]. pose proof (mo_range _ _ Hok r Hr). pose proof (mo_range _ _ HokC r Hr). unfold size_local in S. lia.
Qed.

(** Local column of a global column. *)
Definition lc r h := Z.to_nat (global_to_local (cmap r) h).
Lemma lc_of r c h : r < P -> local_to_global (cmap r) c = Some h -> lc r h = c /\ g2l_index (cmap r) h = Some c.
Proof.
  intros Hr H. destruct cmap_facts as (Hok & _). split; [|now apply (g2l_index_ok cmap)]. pose proof (g2l_index_ok cmap r c h Hok Hr H) as E. unfold g2l_index in E. cbn zeta in E.
  destruct (_ <? 0)%Z; [discriminate|]. unfold lc. congruence.
Qed.
Lemma lc_in r h : r < P -> owns (B1 r) h \/ In h (map fst (CG r)) -> exists c, local_to_global (cmap r) c = Some h /\ lc r h = c /\ g2l_index (cmap r) h = Some c.
Proof.
  intros Hr H. destruct cmap_facts as (Hok & Hf). destruct (Hf r Hr) as (_ & Eg & El & Eh). assert (E : exists c, local_to_global (cmap r) c = Some h).
  - unfold local_to_global. destruct H as [H|H].
    + unfold owns in H. exists (h - im_lo (B1 r)). unfold size_local. rewrite El, Eh. destruct (Nat.ltb_spec (h - im_lo (B1 r)) (im_hi (B1 r) - im_lo (B1 r))); [f_equal; lia|lia].
    + rewrite <- Eg in H. apply In_nth_error in H as (k & Hk). exists (size_local (cmap r) + k). destruct (Nat.ltb_spec (size_local (cmap r) + k) (size_local (cmap r))); [lia|].
      now replace (size_local (cmap r) + k - size_local (cmap r)) with k by lia.
  - destruct E as (c & E). exists c. split; [exact E|]. now apply lc_of.
Qed.
Lemma lc_B r c h : r < P -> local_to_global (B1 r) c = Some h -> local_to_global (cmap r) (lc r h) = Some h /\ (c < size_local (B1 r) -> lc r h = c) /\ g2l_index (cmap r) h = Some (lc r h).
Proof.
  intros Hr H. destruct (lc_in r h Hr) as (c' & E & Ec & Eg).
  - unfold local_to_global in H. destruct (Nat.ltb_spec c (size_local (B1 r))) as [L|L].
    + left. injection H as <-. unfold owns. unfold size_local in L. lia.
    + right. apply CG_has_B; [exact Hr|]. eapply nth_error_In; eauto.
  - rewrite Ec. split; [exact E|]. split; [|exact Eg]. intro L. rewrite l2g_own in H by exact L. injection H as <-. destruct cmap_facts as (Hok & Hf). destruct (Hf r Hr) as (_ & _ & El & Eh).
    apply (l2g_inj P cmap r c' c (im_lo (B1 r) + c) Hok Hr E). rewrite l2g_own by (unfold size_local in *; lia). f_equal. lia.
Qed.
Lemma remap_ok r : r < P -> omap (g2l_index (cmap r)) (im_ghosts (B1 r)) = Some (map (lc r) (im_ghosts (B1 r))).
Proof.
  intro Hr. apply omap_map. intros g Hg. destruct (lc_in r g Hr (or_intror (CG_has_B r g Hr Hg))) as (c & _ & E1 & E2). congruence.
Qed.

(** ** The fetched rows in ghost order *)
Definition grow r g : list (nat * T) := map (fun it : T * (nat * nat) => (lc r (fst (snd it)), fst it)) (BROW g).
Lemma fetched_cols r : r < P -> omap (fun it : T * (nat * nat) => g2l_index (cmap r) (fst (snd it))) (concat (map BROW (gl r))) = Some (map fst (concat (map (grow r) (gl r)))).
Proof.
  intro Hr. rewrite omap_map with (g := fun it : T * (nat * nat) => lc r (fst (snd it))).
  - f_equal. rewrite !concat_map, !map_map. f_equal. apply map_ext. intro g. unfold grow. now rewrite map_map.
  - intros it H. destruct (lc_in r (fst (snd it)) Hr (CG_has_fetched r it Hr H)) as (c & _ & E1 & E2). congruence.
Qed.
Lemma fetched_vals r : map fst (concat (map BROW (gl r))) = map snd (concat (map (grow r) (gl r))).
Proof. rewrite !concat_map, !map_map. f_equal. apply map_ext. intro g. unfold grow. now rewrite map_map. Qed.

Lemma copy_at_tail {A} (x y : list A) d n p : p = length x -> length y <= n -> copy_at (x ++ repeat d n) p y = Some ((x ++ y) ++ repeat d (n - length y)).
Proof.
  intros -> H. unfold copy_at. rewrite app_length, repeat_length. destruct (Nat.leb_spec (length x + length y) (length x + n)); [|lia]. f_equal.
  rewrite firstn_app, firstn_all, Nat.sub_diag. cbn [firstn]. rewrite app_nil_r. rewrite skipn_app, skipn_all2 by lia. cbn [app]. rewrite app_assoc. f_equal.
  replace (length x + length y - length x) with (length y) by lia. replace n with (length y + (n - length y)) at 1 by lia. rewrite repeat_app, skipn_app, repeat_length, Nat.sub_diag. cbn [skipn].
  rewrite skipn_all2 by (now rewrite repeat_length). reflexivity.
Qed.

Lemma ghost_rows_ok r : r < P -> ghost_rows zero P A1 B0 B1 matsB r (cmap r) =
  Some (psums (map (fun g => length (grow r g)) (gh r)), (map fst (concat (map (grow r) (gh r))), map snd (concat (map (grow r) (gh r))))).
Proof.
  intro Hr. unfold ghost_rows. destruct (mm_fast P A1 r) eqn:Ef; [rewrite (fast_ghosts r Hr Ef); reflexivity|].
  rewrite fetched_ok by exact Hr. cbn [obind]. rewrite sizes_ok by exact Hr. cbn [obind]. destruct (perm_ok r Hr) as (perm & Ep & Hlp & Hp). rewrite Ep. cbn [obind].
  rewrite fetched_cols by exact Hr. cbn [obind]. rewrite fetched_vals.
  assert (Hlen : forall g, length (BROW g) = length (grow r g)) by (intro g; unfold grow; now rewrite map_length).
  assert (Eos : omap (nth_error (map (fun g => length (BROW g)) (gl r))) perm = Some (map (fun g => length (grow r g)) (gh r))).
  { rewrite omap_map with (g := fun p => nth p (map (fun g => length (BROW g)) (gl r)) 0).
    - f_equal. apply nth_error_ext. intro i. rewrite !nth_error_map_some. destruct (nth_error perm i) as [p|] eqn:Ei.
      + destruct (Hp i p Ei) as (Hb & Eg). rewrite <- Eg. cbn [option_map]. destruct (nth_error (gl r) p) as [g|] eqn:E; [|apply nth_error_None in E; lia]. cbn [option_map]. f_equal.
        apply nth_error_nth. rewrite nth_error_map_some, E. cbn [option_map]. now rewrite Hlen.
      + apply nth_error_None in Ei. rewrite (proj2 (nth_error_None _ _)) by lia. reflexivity.
    - intros p Hin. apply In_nth_error in Hin as (i & Hi). destruct (Hp i p Hi) as (Hb & _). apply nth_error_nth_some. now rewrite map_length. }
  rewrite Eos. cbn [obind].
  assert (Htot : length (concat (map (grow r) (gl r))) = length (concat (map (grow r) (gh r)))).
  { rewrite <- !lsum_concat_length, !map_map. apply lsum_perm. apply Permutation_map, Permutation_sym, gl_perm, Hr. }
  rewrite !map_length. set (N := length (concat (map (grow r) (gl r)))) in *.
  rewrite (map_ext _ (fun g => length (grow r g)) Hlen). rewrite <- !(map_map (grow r) (@length _)).
  set (F := fun '(cs, vs) i => _). assert (Hloop : forall n, n <= length (gh r) -> ofold F (seq 0 n) (repeat 0 N, repeat zero N) =
     Some (map fst (concat (firstn n (map (grow r) (gh r)))) ++ repeat 0 (N - length (concat (firstn n (map (grow r) (gh r))))),
           map snd (concat (firstn n (map (grow r) (gh r)))) ++ repeat zero (N - length (concat (firstn n (map (grow r) (gh r))))))).
  { induction n as [|n IH]; intro Hn; [cbn; now rewrite Nat.sub_0_r|]. rewrite seq_S, ofold_app, IH by lia. cbn [obind ofold plus]. unfold F.
    destruct (nth_error_lt perm n ltac:(lia)) as (p & Hpn). destruct (Hp n p Hpn) as (Hb & Eg). rewrite Hpn. cbn [obind].
    destruct (nth_error_lt (gh r) n ltac:(lia)) as (g & Hg). rewrite Hg in Eg.
    assert (Erp : nth_error (map (grow r) (gl r)) p = Some (grow r g)) by (rewrite nth_error_map_some, Eg; reflexivity).
    assert (Eon : nth_error (map (grow r) (gh r)) n = Some (grow r g)) by (rewrite nth_error_map_some, Hg; reflexivity).
    assert (Hsl : forall (X : Type) (f : nat * T -> X), slice_at (map f (concat (map (grow r) (gl r)))) (psums (map (@length _) (map (grow r) (gl r)))) p = Some (map f (grow r g))).
    { intros X f. rewrite concat_map. replace (map (@length _) (map (grow r) (gl r))) with (map (@length _) (map (map f) (map (grow r) (gl r)))).
      - apply slice_at_concat. rewrite nth_error_map_some, Erp. reflexivity.
      - rewrite !map_map. apply map_ext. intro. apply map_length. }
    pose proof (Hsl _ fst) as S1. pose proof (Hsl _ snd) as S2. unfold slice_at in S1, S2.
    destruct (nth_error (psums (map (@length _) (map (grow r) (gl r)))) p) as [a|]; [|discriminate]. cbn [obind] in S1, S2 |- *.
    destruct (nth_error (psums (map (@length _) (map (grow r) (gl r)))) (S p)) as [b|]; [|discriminate]. cbn [obind] in S1, S2 |- *.
    rewrite psums_nth by (rewrite !map_length; lia). cbn [obind]. rewrite S1. cbn [obind]. rewrite S2. cbn [obind].
    set (pre := firstn n (map (grow r) (gh r))). assert (Epre : lsum (firstn n (map (@length _) (map (grow r) (gh r)))) = length (concat pre)).
    { unfold pre. rewrite firstn_map. apply lsum_concat_length. }
    assert (Hfs : firstn (S n) (map (grow r) (gh r)) = pre ++ [grow r g]) by (now apply firstn_S_nth).
    assert (Hfit : length (concat pre) + length (grow r g) <= N).
    { rewrite Htot, <- (firstn_skipn (S n) (map (grow r) (gh r))), Hfs, concat_app, concat_app, !app_length. cbn [concat]. rewrite app_nil_r. lia. }
    rewrite Epre. rewrite copy_at_tail by (rewrite map_length; lia). cbn [obind].
    rewrite copy_at_tail by (rewrite map_length; lia). cbn [obind].
    rewrite Hfs, concat_app. cbn [concat]. rewrite app_nil_r, !map_app, !map_length, app_length. do 2 f_equal; f_equal; f_equal; lia. }
  rewrite Hlp, (Hloop (length (gh r)) (le_n _)). cbn [obind]. rewrite firstn_all2 by (now rewrite map_length). rewrite <- Htot. fold N. rewrite Nat.sub_diag. cbn [repeat]. rewrite !app_nil_r. reflexivity.
Qed.
End Comm.
