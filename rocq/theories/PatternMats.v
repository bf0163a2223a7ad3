(** Matrices made for a finalised sparsity pattern. *)
From Verif Require Import Base BaseProofs BucketProofs Algo AlgoProofs Nbx World WorldProofs IndexMap IndexMapSpec IndexMapProofs ImSharedProofs ScattererProofs
  Sparsity SparsitySpec SparsityProofs MatrixCSR MatrixSpec MatrixProofs MatrixPar MatrixParSpec MatrixParProofs.

Lemma maps_ok_ext P (m m' : nat -> imap) : 0 < P -> (forall r, r < P -> m r = m' r) -> maps_ok P m -> maps_ok P m'.
Proof.
  intros HP E H. destruct H. split.
  - rewrite <- E by exact HP. assumption.
  - intros r Hr. rewrite <- !E by lia. auto.
  - intros r Hr. rewrite <- E by lia. auto.
  - intros r Hr. rewrite <- E by lia. auto.
  - intros r Hr. rewrite <- E by lia. auto.
  - intros r k g o Hr. rewrite <- E by lia. intros Hg Ho. destruct (mo_owner r k g o Hr Hg Ho) as (A & B & C). rewrite <- E by lia. auto.
  - intros r Hr. rewrite <- E by lia. auto.
  - intros r Hr. rewrite <- E by lia. destruct (mo_dest r Hr) as (A & B). split; [exact A|]. intro s. rewrite B. split; intros (Hs & Hin).
    + rewrite <- E by lia. auto.
    + rewrite <- E in Hin by lia. auto.
Qed.

Lemma nth_error_combine {A B} (a : list A) (b : list B) i x y : nth_error a i = Some x -> nth_error b i = Some y -> nth_error (combine a b) i = Some (x, y).
Proof.
  revert b i. induction a as [|u a IH]; intros [|v b] [|i] Ha Hb; try discriminate.
  - injection Ha as ->. injection Hb as ->. reflexivity.
  - cbn in *. now apply IH.
Qed.

Lemma pattern_mats {T} (zero : T) P nbx maps0 maps1 patterns newp newm bs0 bs1 (mats : nat -> csr T) offs :
  0 < P -> nbx_oracle P nbx -> maps_ok P maps0 -> maps_ok P maps1 -> patterns_ok P maps0 maps1 patterns ->
  (forall r, r < P -> sp_finalize P nbx maps0 maps1 patterns r = Some (newp r, newm r)) ->
  0 < bs0 -> 0 < bs1 -> (forall r, r < P -> of_pattern zero bs0 bs1 (mats r) (offs r) (newp r)) ->
  maps_ok P newm /\ mats_ok P maps0 newm bs0 bs1 mats /\ offs_ok P maps0 newm offs mats.
Proof.
  intros HP Hnbx Hok0 Hok1 Hp Hfin H0 H1 Hmats.
  destruct (finalize_ok P nbx maps0 maps1 patterns HP Hnbx Hok0 Hok1 Hp) as (np & nm & Hfin' & Hnm & Hall).
  assert (En : forall r, r < P -> np r = newp r /\ nm r = newm r).
  { intros r Hr. pose proof (Hfin r Hr) as E. rewrite (Hfin' r Hr) in E. injection E as -> ->. auto. }
  assert (Hnew : maps_ok P newm) by (apply (maps_ok_ext P nm); auto; intros; now apply En).
  assert (Hpat : forall r, r < P -> exists f rows, sp_edges f = concat rows /\ sp_offsets f = psums (map (@length nat) rows) /\
     length rows = size_local (maps0 r) + num_ghosts (maps0 r) /\ length (sp_offdiag f) = length rows /\
     spat_ok maps0 maps1 patterns P r (newm r) f /\
     mt_bs0 (mats r) = bs0 /\ mt_bs1 (mats r) = bs1 /\ mt_cols (mats r) = concat rows /\ mt_rp (mats r) = psums (map (@length nat) rows) /\
     length (mt_data (mats r)) = length (concat rows) * bs0 * bs1 /\ offs r = map (fun p => fst p + snd p) (combine (sp_offdiag f) (sp_offsets f))).
  { intros r Hr. destruct (Hall r Hr) as (_ & _ & _ & f & Ef & _ & _ & L1 & L2 & (rows & Ee & Eo) & Hs). destruct (En r Hr) as (E1 & E2). rewrite E1 in Ef. rewrite E2 in Hs.
    destruct (Hmats r Hr) as (f' & Ef' & Hm). rewrite Ef in Ef'. injection Ef' as <-. cbn [csr_compact] in Hm. cbn [mt_bs0 mt_bs1 mt_cols mt_rp mt_data] in Hm.
    destruct Hm as (M1 & M2 & M3 & M4 & M5 & M6). rewrite Eo, psums_length, map_length in L1. exists f, rows.
    rewrite repeat_length in M5. rewrite Ee in M3, M5. rewrite Eo in M4. repeat (split; [first [assumption|lia]|]). assumption. }
  assert (Hsort : forall r f rows, r < P -> sp_edges f = concat rows -> sp_offsets f = psums (map (@length nat) rows) -> length rows = size_local (maps0 r) + num_ghosts (maps0 r) ->
     spat_ok maps0 maps1 patterns P r (newm r) f -> Forall (StronglySorted lt) rows).
  { intros r f rows Hr Ee Eo Hl Hs. apply Forall_forall. intros row Hin. apply In_nth_error in Hin as (i & Hi). pose proof (nth_error_bound _ _ _ Hi) as Lt.
    destruct (proj1 Hs i) as (row' & d & Es & Hss & _); [lia|]. rewrite Ee, Eo, (slice_row rows i Lt) in Es. injection Es as <-. unfold R in Hss. now rewrite (nth_error_nth _ _ [] Hi) in Hss. }
  assert (Hl2g : forall r c, r < P -> c < size_local (maps1 r) + num_ghosts (maps1 r) -> local_to_global (newm r) c = local_to_global (maps1 r) c).
  { intros r c Hr Hc. destruct (Hall r Hr) as (A & B & (ext & exto & Eg & _) & _). destruct (En r Hr) as (_ & E). rewrite E in A, B, Eg.
    unfold local_to_global, size_local. rewrite A, B, Eg. destruct (c <? _) eqn:L; [reflexivity|]. apply nth_error_app1. apply Nat.ltb_ge in L. unfold size_local, num_ghosts in Hc. lia. }
  assert (Hcol : forall r i c f, r < P -> spat_ok maps0 maps1 patterns P r (newm r) f -> i < size_local (maps0 r) + num_ghosts (maps0 r) ->
     (exists row, slice_at (sp_edges f) (sp_offsets f) i = Some row /\ In c row) -> exists g, local_to_global (newm r) c = Some g).
  { intros r i c f Hr Hs Hi (row & Er & Hc). destruct (proj1 Hs i Hi) as (row' & d & Er' & _ & Hin & _). rewrite Er in Er'. injection Er' as <-. apply Hin in Hc.
    destruct (i <? size_local (maps0 r)).
    - destruct Hc as (g & q & Hg & _). eauto.
    - destruct (Hp r Hr) as (_ & Hb). apply Hb in Hc as (_ & Hc). rewrite (Hl2g r c Hr Hc). now apply (l2g_some (maps1 r) (mo_range _ _ Hok1 r Hr)). }
  split; [exact Hnew|]. split.
  - split.
    + intros r Hr. destruct (Hpat r Hr) as (f & rows & Ee & Eo & Hl & Hd & Hs & M1 & M2 & M3 & M4 & M5 & M6). split; [|auto]. unfold csr_ok. rewrite M1, M2, M3, M4, M5.
      split; [exact H0|]. split; [exact H1|]. split; [|reflexivity]. exists rows. split; [reflexivity|]. split; [reflexivity|]. eapply Hsort; eauto.
    + intros r Hr. destruct (Hpat r Hr) as (f & rows & Ee & Eo & Hl & Hd & Hs & M1 & M2 & M3 & M4 & M5 & M6). rewrite M4, psums_length, map_length. lia.
    + intros r c Hr Hc. destruct (Hpat r Hr) as (f & rows & Ee & Eo & Hl & Hd & Hs & M1 & M2 & M3 & M4 & M5 & M6). rewrite M3 in Hc.
      apply in_concat in Hc as (row & Hrow & Hc). apply In_nth_error in Hrow as (i & Hi). pose proof (nth_error_bound _ _ _ Hi) as Lt.
      destruct (Hcol r i c f Hr Hs) as (g & Hg); [lia| |].
      * exists row. split; [|exact Hc]. rewrite Ee, Eo, slice_row by exact Lt. f_equal. unfold R. now apply nth_error_nth.
      * unfold local_to_global in Hg. destruct (Nat.ltb_spec c (size_local (newm r))) as [L|L]; [lia|]. apply nth_error_bound in Hg. unfold num_ghosts. lia.
    + intros q k G r c g Hq Hk Hr HG (row & Er & Hc) Hg.
      destruct (Hpat q Hq) as (f & rows & Ee & Eo & Hl & Hd & Hs & M1 & M2 & M3 & M4 & M5 & M6).
      destruct (Hpat r Hr) as (f' & rows' & Ee' & Eo' & Hl' & Hd' & Hs' & M1' & M2' & M3' & M4' & M5' & M6').
      pose proof (nth_error_bound _ _ _ Hk) as Lk. set (i := size_local (maps0 q) + k) in *.
      destruct (proj1 Hs i) as (row' & d & Er' & _ & Hin & _); [unfold num_ghosts; lia|]. rewrite Ee, Eo, <- M3, <- M4, Er in Er'. injection Er' as <-. apply Hin in Hc.
      destruct (Nat.ltb_spec i (size_local (maps0 q))) as [L|L]; [lia|]. destruct (Hp q Hq) as (_ & Hb). destruct (Hb _ _ Hc) as (_ & Hcb). rewrite (Hl2g q c Hq Hcb) in Hg.
      assert (Hins : inserted_on maps0 maps1 patterns q (im_lo (maps0 r) + (G - im_lo (maps0 r))) g).
      { exists i, c. split; [exact Hc|]. split; [|exact Hg]. unfold local_to_global. destruct (Nat.ltb_spec i (size_local (maps0 q))); [lia|].
        replace (i - size_local (maps0 q)) with k by lia. rewrite Hk. f_equal. unfold owns in HG. lia. }
      assert (Hi0 : G - im_lo (maps0 r) < size_local (maps0 r)) by (unfold owns in HG; unfold size_local; lia).
      destruct (proj2 Hs' _ g q Hi0 Hq Hins) as (c' & Hc'). exists c'. split; [exact Hc'|].
      destruct (proj1 Hs' (G - im_lo (maps0 r))) as (row' & d' & Er' & _ & Hin' & _); [lia|]. exists row'. rewrite M3', M4', <- Ee', <- Eo'. split; [exact Er'|].
      apply Hin'. destruct (Nat.ltb_spec (G - im_lo (maps0 r)) (size_local (maps0 r))); [|lia]. eauto.
  - intros r Hr. destruct (Hpat r Hr) as (f & rows & Ee & Eo & Hl & Hd & Hs & M1 & M2 & M3 & M4 & M5 & M6). rewrite M6, M4, M3. split.
    + rewrite map_length, combine_length, Eo, psums_length, map_length. lia.
    + intros i Hi. destruct (proj1 Hs i) as (row & d & Er & Hss & Hin & Ed & Hdl & Hdk); [lia|]. rewrite Ee, Eo, slice_row in Er by lia. injection Er as <-.
      exists (off rows i), (d + off rows i), (off rows (S i)). rewrite !rp_nth by lia. split; [reflexivity|]. split.
      { rewrite nth_error_map_some. rewrite (nth_error_combine _ _ i d (off rows i)); [reflexivity|exact Ed|]. rewrite Eo. apply rp_nth. lia. }
      split; [reflexivity|].
      assert (Eoff : off rows (S i) = off rows i + length (R rows i)).
      { unfold off. apply lsum_firstn_S. rewrite nth_error_map_some. unfold R. now rewrite (nth_error_nth_some rows i []) by lia. }
      split; [lia|]. intros j c Hj Hc. assert (Ht : nth_error (R rows i) (j - off rows i) = Some c).
      { assert (Lt : j - off rows i < length (R rows i)) by lia. rewrite <- Hc. replace j with (off rows i + (j - off rows i)) at 2 by lia.
        symmetry. apply (nth_error_concat rows i (R rows i)); [unfold R; apply nth_error_nth_some; lia|exact Lt]. }
      rewrite <- (Hdk _ _ Ht). lia.
Qed.
