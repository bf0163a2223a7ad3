(** Proofs about the vertices of refined meshes: numbers. *)
From Verif Require Import Base BaseProofs BucketProofs Algo AlgoProofs World WorldProofs IndexMap IndexMapSpec IndexMapProofs ImSharedProofs SparsityProofs
  LocateSpec LocateProofs MatrixPar MatrixCSR MatrixProofs AsmVector DualPairs DualLocal Marking MarkingSpec MarkingRanks MarkingProofs StackProofs RefUtils RefUtilsProofs NewVerts NewVertsSpec.
Open Scope nat_scope.

(** ** Lists *)
Lemma filter_pos (p : nat -> bool) n e : e < n -> p e = true -> nth_error (filter p (seq 0 n)) (length (filter p (seq 0 e))) = Some e.
Proof.
  intros He Hp. replace n with (e + S (n - S e)) by lia. rewrite seq_app, filter_app. cbn [seq plus]. rewrite nth_error_app2, Nat.sub_diag by lia. cbn [filter]. now rewrite Hp.
Qed.
Lemma filter_pos_inv (p : nat -> bool) n i e : nth_error (filter p (seq 0 n)) i = Some e -> e < n /\ p e = true /\ i = length (filter p (seq 0 e)).
Proof.
  intro H. pose proof (nth_error_In _ _ H) as Hin. apply filter_In in Hin as (Hin & Hp). apply in_seq in Hin. split; [lia|]. split; [exact Hp|].
  pose proof (filter_pos p n e ltac:(lia) Hp) as H'. assert (ND : NoDup (filter p (seq 0 n))) by apply NoDup_filter, seq_NoDup.
  rewrite NoDup_nth_error in ND. apply ND; [eapply nth_error_bound; eauto|congruence].
Qed.
Lemma list_seq_map {A} (l : list A) d : l = map (fun k => nth k l d) (seq 0 (length l)).
Proof.
  apply nth_error_ext. intro i. rewrite nth_error_map. destruct (Nat.lt_ge_cases i (length l)) as [Q|Q].
  - rewrite nth_error_seq by exact Q. cbn [option_map plus]. now apply nth_error_nth'.
  - replace (nth_error (seq 0 (length l)) i) with (@None nat) by (symmetry; apply nth_error_None; rewrite seq_length; lia). now apply nth_error_None.
Qed.
Lemma push_one {A} n (F : nat -> list A) k x : k < n -> push_back (map F (seq 0 n)) k x = Some (map (fun j => if j =? k then F j ++ [x] else F j) (seq 0 n)).
Proof.
  intro Hk. unfold push_back. destruct (modify_some (map F (seq 0 n)) k (fun b => b ++ [x])) as (u & E); [now rewrite map_length, seq_length|]. rewrite E. f_equal. apply nth_error_ext. intro j.
  rewrite (modify_nth _ _ _ j _ E). rewrite !nth_error_map. destruct (Nat.lt_ge_cases j n) as [L|L].
  - rewrite nth_error_seq by exact L. cbn [option_map plus]. rewrite (Nat.eqb_sym j k). destruct (Nat.eqb k j); reflexivity.
  - replace (nth_error (seq 0 n) j) with (@None nat) by (symmetry; apply nth_error_None; rewrite seq_length; lia). destruct (Nat.eqb k j); reflexivity.
Qed.
Lemma push_row {A} n (x : A) ks : NoDup ks -> (forall k, In k ks -> k < n) -> forall F, ofold (fun u k => push_back u k x) ks (map F (seq 0 n)) = Some (map (fun k => F k ++ if mem k ks then [x] else []) (seq 0 n)).
Proof.
  induction 1 as [|k ks Hk _ IH]; intros Hb F; cbn [ofold].
  - f_equal. apply map_ext. intro. cbn. now rewrite app_nil_r.
  - rewrite push_one by (apply Hb; now left). cbn [obind]. rewrite IH by (intros; apply Hb; now right). f_equal. apply map_ext. intro j. cbn [mem existsb]. change (existsb (Nat.eqb j) ks) with (mem j ks).
    destruct (Nat.eqb_spec j k) as [->|N]; cbn [orb]; [|reflexivity]. destruct (mem k ks) eqn:E; [apply mem_iff in E; contradiction|]. now rewrite app_nil_r.
Qed.
Lemma push_rows {A B} n (step : list (list A) -> B -> option (list (list A))) (rows : B -> list nat) (val : B -> A) l :
  (forall b u, In b l -> step u b = ofold (fun u k => push_back u k (val b)) (rows b) u) -> (forall b, In b l -> NoDup (rows b) /\ forall k, In k (rows b) -> k < n) ->
  forall F, ofold step l (map F (seq 0 n)) = Some (map (fun k => F k ++ concat (map (fun b => if mem k (rows b) then [val b] else []) l)) (seq 0 n)).
Proof.
  induction l as [|b l IH]; intros Hs Hr F; cbn [ofold map concat].
  - f_equal. apply map_ext. intro. now rewrite app_nil_r.
  - rewrite Hs by now left. destruct (Hr b (or_introl eq_refl)) as (A1 & A2). rewrite (push_row n (val b) (rows b) A1 A2). cbn [obind].
    rewrite IH by (intros; first [apply Hs; now right|apply Hr; now right]). f_equal. apply map_ext. intro k. now rewrite <- app_assoc.
Qed.
Lemma fst_sorted {A} (l : list (nat * A)) : StronglySorted (fun a b => fst a <= fst b) (isort (fun a b => fst a <=? fst b) l).
Proof.
  assert (H : forall l : list (nat * A), StronglySorted (fun a b => (fst a <=? fst b) = true) l -> StronglySorted (fun a b => fst a <= fst b) l).
  { induction 1 as [|a t Ht IH Ha]; constructor; [exact IH|]. eapply Forall_impl; [|exact Ha]. intros b Hb. now apply Nat.leb_le. }
  apply H. apply isort_sorted.
  - intros x y. rewrite !Nat.leb_le. lia.
  - intros x y z. rewrite !Nat.leb_le. lia.
Qed.
Lemma keys_perm_eq {A} (l l' : list (nat * A)) : StronglySorted (fun a b => fst a <= fst b) l -> StronglySorted (fun a b => fst a <= fst b) l' -> NoDup (map fst l) -> Permutation l l' -> l = l'.
Proof.
  revert l'. induction l as [|x t IH]; intros l' Hs Hs' ND Hp.
  - apply Permutation_nil in Hp. now subst.
  - destruct l' as [|y t']; [symmetry in Hp; now apply Permutation_nil in Hp|]. inversion Hs as [|? ? Ht Hx]; inversion Hs' as [|? ? Ht' Hy]; subst. rewrite Forall_forall in Hx, Hy. inversion ND as [|? ? Nx Nt]; subst.
    assert (x = y) as ->.
    { assert (Ix : In x (y :: t')) by (eapply Permutation_in; [exact Hp|now left]). assert (Iy : In y (x :: t)) by (eapply Permutation_in; [symmetry; exact Hp|now left]).
      destruct Ix as [->|Ix]; [reflexivity|]. destruct Iy as [->|Iy]; [reflexivity|]. exfalso. apply Nx. replace (fst x) with (fst y); [now apply in_map|]. pose proof (Hx _ Iy). pose proof (Hy _ Ix). lia. }
    f_equal. apply IH; auto. now apply Permutation_cons_inv in Hp.
Qed.
Lemma concat_single {A B} (p : A -> bool) (f : A -> B) l : concat (map (fun e => if p e then [f e] else []) l) = map f (filter p l).
Proof. induction l as [|a l IH]; [reflexivity|]. cbn [map concat filter]. rewrite IH. destruct (p a); reflexivity. Qed.
(** An association list with one entry for every marked key becomes an adjacency list. *)
Lemma adj_of_keys (evs : list (nat * nat)) (p : nat -> bool) (f : nat -> nat) n :
  NoDup (map fst evs) -> (forall e v, In (e, v) evs <-> e < n /\ p e = true /\ v = f e) ->
  exists offset, ofold (fun o ev => upd o (fst ev + 1) 1) evs (repeat 0 (n + 1)) = Some offset /\
    map snd (isort (fun a b => fst a <=? fst b) evs) = concat (map (fun e => if p e then [f e] else []) (seq 0 n)) /\
    tl (psums offset) = psums (map (@length nat) (map (fun e => if p e then [f e] else []) (seq 0 n))).
Proof.
  intros ND Hin.
  assert (Eo : exists offset, ofold (fun o ev => upd o (fst ev + 1) 1) evs (repeat 0 (n + 1)) = Some offset /\ length offset = n + 1 /\ forall j, j < n + 1 -> nth_error offset j = Some (if mem j (map (fun ev => fst ev + 1) evs) then 1 else 0)).
  { assert (Hb : forall ev, In ev evs -> fst ev < n) by (intros [e v] H; apply Hin in H; cbn; tauto). clear ND Hin.
    assert (G : forall l o s, (forall ev, In ev l -> fst ev < n) -> length o = n + 1 -> (forall j, j < n + 1 -> nth_error o j = Some (if mem j s then 1 else 0)) ->
      exists offset, ofold (fun o ev => upd o (fst ev + 1) 1) l o = Some offset /\ length offset = n + 1 /\ forall j, j < n + 1 -> nth_error offset j = Some (if mem j (map (fun ev : nat * nat => fst ev + 1) l ++ s) then 1 else 0)).
    { induction l as [|ev l IH]; intros o s Hl Lo Ho; cbn [ofold]; [eauto|]. destruct (upd_some o (fst ev + 1) 1) as (o' & E); [specialize (Hl ev (or_introl eq_refl)); lia|]. rewrite E. cbn [obind].
      destruct (IH o' (fst ev + 1 :: s)) as (off & E' & L' & H').
      - intros; apply Hl; now right.
      - now rewrite (upd_length _ _ _ _ E).
      - intros j Hj. rewrite (upd_nth _ _ _ j _ E). cbn [mem existsb]. change (existsb (Nat.eqb j) s) with (mem j s). rewrite (Nat.eqb_sym j). destruct (Nat.eqb (fst ev + 1) j) eqn:Q; cbn [orb].
        + apply Nat.eqb_eq in Q. subst j. replace (fst ev + 1 <? length o) with true by (symmetry; apply Nat.ltb_lt; lia). first [reflexivity|idtac].
        + now apply Ho.
      - exists off. split; [exact E'|]. split; [exact L'|]. intros j Hj. rewrite H' by exact Hj.
        replace (mem j (map (fun ev0 : nat * nat => fst ev0 + 1) (ev :: l) ++ s)) with (mem j (map (fun ev0 : nat * nat => fst ev0 + 1) l ++ fst ev + 1 :: s)); [reflexivity|].
        apply Bool.eq_true_iff_eq. rewrite !mem_iff. cbn [In map app]. rewrite !in_app_iff. cbn [In]. tauto. }
    destruct (G evs (repeat 0 (n + 1)) [] Hb) as (off & E & L & H); [apply repeat_length|intros j Hj; cbn; now rewrite nth_error_repeat|]. rewrite app_nil_r in H. eauto. }
  destruct Eo as (offset & Eo & Lo & Ho). exists offset. split; [exact Eo|]. split.
  - rewrite concat_single. set (tgt := map (fun e => (e, f e)) (filter p (seq 0 n))).
    assert (Et : isort (fun a b : nat * nat => fst a <=? fst b) evs = tgt).
    { apply keys_perm_eq.
      - apply fst_sorted.
      - unfold tgt. assert (S : StronglySorted lt (filter p (seq 0 n))) by (apply SS_filter, SS_lt_seq). induction S as [|a t St IH Ha]; cbn [map]; constructor; [exact IH|]. rewrite Forall_forall in *. intros y Hy. apply in_map_iff in Hy as (e & <- & He). cbn [fst]. specialize (Ha e He). lia.
      - eapply Permutation_NoDup; [apply Permutation_map, isort_perm|exact ND].
      - rewrite <- isort_perm. apply NoDup_Permutation.
        + eapply NoDup_map_inv; exact ND.
        + unfold tgt. apply FinFun.Injective_map_NoDup; [intros a b Q; now injection Q|]. apply NoDup_filter, seq_NoDup.
        + intros [e v]. rewrite Hin. unfold tgt. rewrite in_map_iff. split.
          * intros (A & B & ->). exists e. split; [reflexivity|]. apply filter_In. split; [apply in_seq; lia|exact B].
          * intros (e' & [= -> <-] & H). apply filter_In in H as (H & B). apply in_seq in H. split; [lia|auto]. }
    rewrite Et. unfold tgt. now rewrite map_map.
  - assert (E0 : offset = 0 :: map (fun e => if p e then 1 else 0) (seq 0 n)).
    { apply nth_error_ext. intros [|j].
      - rewrite Ho by lia. cbn [nth_error]. destruct (mem 0 _) eqn:Q; [|reflexivity]. apply mem_iff, in_map_iff in Q as (ev & Q & _). lia.
      - change (nth_error (0 :: map (fun e => if p e then 1 else 0) (seq 0 n)) (S j)) with (nth_error (map (fun e => if p e then 1 else 0) (seq 0 n)) j). rewrite nth_error_map. destruct (Nat.lt_ge_cases j n) as [L|L].
        + rewrite Ho by lia. rewrite nth_error_seq by exact L. cbn [option_map plus].
          assert (Q : mem (S j) (map (fun ev => fst ev + 1) evs) = p j); [|now rewrite Q].
          apply Bool.eq_true_iff_eq. rewrite mem_iff, in_map_iff. split.
          * intros ([e v] & Q & H). cbn [fst] in Q. apply Hin in H as (_ & H & _). now replace j with e by lia.
          * intro H. exists (j, f j). cbn [fst]. split; [lia|]. apply Hin. auto.
        + replace (nth_error (seq 0 n) j) with (@None nat) by (symmetry; apply nth_error_None; rewrite seq_length; lia). cbn [option_map]. apply nth_error_None. lia. }
    rewrite E0. unfold psums. cbn [psums_from tl plus]. f_equal. rewrite map_map. apply map_ext. intro e. destruct (p e); reflexivity.
Qed.

Section Numbers.
Variables (P : nat) (nbx : (nat -> list nat) -> nat -> list nat) (emaps vmaps : nat -> imap) (marks : nat -> list bool).
Hypothesis (Hnbx : nbx_oracle P nbx) (He : maps_ok P emaps) (Hv : maps_ok P vmaps) (Hm : marks_ok P emaps marks).
Notation mk r := (is_marked marks r).
Notation ml r := (filter (mk r) (seq 0 (size_local (emaps r)))).
Notation nbrs := (edge_nbrs P nbx emaps).

Lemma marked_len r : r < P -> length (marks r) = size_local (emaps r) + num_ghosts (emaps r).
Proof. intro Hr. exact (proj1 Hm r Hr). Qed.
Lemma marked_nth r e : nth_error (marks r) e = Some true <-> mk r e = true.
Proof.
  unfold is_marked. split; [intro H; now apply nth_error_nth|]. intro H. destruct (Nat.lt_ge_cases e (length (marks r))) as [L|L].
  - rewrite <- H. now apply nth_error_nth'.
  - rewrite nth_overflow in H by exact L. discriminate.
Qed.
Lemma marked_list_ok r : r < P -> marked_list emaps marks r = Some (ml r).
Proof.
  intro Hr. pose proof (marked_len r Hr) as L. unfold marked_list.
  assert (G : forall n, n <= length (marks r) -> ofold (fun l i => m <- nth_error (marks r) i ;; Some (if m : bool then l ++ [i] else l)) (seq 0 n) [] = Some (filter (mk r) (seq 0 n))).
  { induction n as [|n IH]; intro Hn; [reflexivity|]. rewrite seq_S, ofold_app, IH by lia. cbn [obind plus ofold]. rewrite (nth_error_nth' _ false) by lia. cbn [obind]. rewrite filter_app. cbn [filter]. unfold is_marked. destruct (nth n (marks r) false); [reflexivity|now rewrite app_nil_r]. }
  apply G. lia.
Qed.
Lemma num_marked_ok r : r < P -> num_marked emaps marks r = marked_before marks r (size_local (emaps r)).
Proof. intro Hr. unfold num_marked. now rewrite marked_list_ok. Qed.
Lemma first_new_ok r : r < P -> first_new emaps vmaps marks r = lsum (map (new_size emaps vmaps marks) (seq 0 r)) + size_local (vmaps r).
Proof.
  intro Hr. unfold first_new. assert (H : forall n, n <= r -> exscan (num_marked emaps marks) n + lsum (map (fun q => size_local (vmaps q)) (seq 0 n)) = lsum (map (new_size emaps vmaps marks) (seq 0 n))).
  { induction n as [|n IH]; intro Hn; [reflexivity|]. unfold exscan in *. rewrite !seq_S, !map_app, !lsum_app. cbn [map plus]. rewrite !lsum_cons, !lsum_nil. rewrite <- IH by lia. unfold new_size. rewrite num_marked_ok by lia. lia. }
  specialize (H r (le_n r)). rewrite <- H, <- (lo_is_sum P vmaps Hv r Hr). pose proof (mo_range _ _ Hv r Hr). unfold size_local. lia.
Qed.

Lemma edge_rows r : r < P -> exists ranks rows, edge_ranks P nbx emaps r = Some (ranks, (concat rows, psums (map (@length nat) rows))) /\
  NoDup ranks /\ ranks = nbrs r /\ length rows = edge_count (emaps r) /\
  (forall e row, nth_error rows e = Some row -> NoDup row /\ (forall k, In k row -> k < length ranks) /\ forall k q, nth_error ranks k = Some q -> (In k row <-> shares emaps r e q)).
Proof.
  intro Hr. destruct (edge_ranks_ok P nbx emaps Hnbx He r Hr) as (ranks & rows & E & ND & L & _ & Hrow). exists ranks, rows. split; [exact E|]. split; [exact ND|]. split; [unfold edge_nbrs; now rewrite E|]. split; [exact L|].
  intros e row Er. destruct (Hrow e row Er) as (A & B). split; [|auto].
  destruct (i2d_full P emaps He nbx Hnbx r Hr) as (rows' & E' & L' & H1 & H2).
  assert (Es : slice_at (concat rows) (psums (map (@length nat) rows)) e = Some row) by now apply slice_at_concat.
  unfold edge_ranks in E. rewrite E' in E. cbn [obind] in E. destruct (omap (find_sorted (sort_uniq (concat rows'))) (concat rows')) as [pos|] eqn:Ep; [|discriminate]. injection E as Er1 Er2 Er3.
  rewrite <- Er2, <- Er3 in Es. 
  assert (Epos : pos = concat (map (map (nbpos ranks)) rows')).
  { rewrite <- concat_map. assert (Q : omap (find_sorted (sort_uniq (concat rows'))) (concat rows') = Some (map (nbpos ranks) (concat rows'))); [|congruence].
    apply omap_map. intros q Hq. rewrite find_sorted_spec by apply sort_uniq_sorted. rewrite Er1. apply (sort_uniq_in (concat rows') q) in Hq. rewrite Er1 in Hq. unfold nbpos. destruct (index_in_in _ _ Hq) as (i & ->). reflexivity. }
  assert (Eo : psums (map (@length nat) rows') = psums (map (@length nat) (map (map (nbpos ranks)) rows'))) by (f_equal; rewrite map_map; apply map_ext; intro; now rewrite map_length).
  rewrite Epos, Eo in Es. assert (Le : e < length rows').
  { rewrite L'. apply nth_error_bound in Er. rewrite L in Er. exact Er. }
  destruct (nth_error_lt rows' e Le) as (row' & Erow'). rewrite (slice_at_concat _ e (map (nbpos ranks) row')) in Es by now rewrite nth_error_map, Erow'. injection Es as <-.
  assert (NDr : NoDup row').
  { destruct (Nat.lt_ge_cases e (size_local (emaps r))) as [Q|Q].
    - rewrite H1 in Erow' by exact Q. injection Erow' as <-. apply NoDup_filter, seq_NoDup.
    - destruct (nth_error_lt (im_ghosts (emaps r)) (e - size_local (emaps r))) as (g & Hg); [unfold num_ghosts in L'; lia|]. destruct (nth_error_lt (im_owners (emaps r)) (e - size_local (emaps r))) as (o & Ho); [rewrite (mo_len _ _ He r Hr); unfold num_ghosts in L'; lia|].
      pose proof (H2 _ g o Hg Ho) as H3. replace (size_local (emaps r) + (e - size_local (emaps r))) with e in H3 by lia. rewrite Erow' in H3. injection H3 as ->. unfold see_ghost. apply NoDup_filter, seq_NoDup. }
  assert (Hin : forall q, In q row' -> In q ranks) by (intros q Hq; rewrite <- Er1; apply sort_uniq_in, in_concat; exists row'; split; [eapply nth_error_In; eauto|exact Hq]).
  clear -NDr Hin. induction NDr as [|q t Nq NDt IH]; [constructor|]. cbn [map]. constructor; [|apply IH; intros; apply Hin; now right].
  intro H. apply in_map_iff in H as (q' & E & Hq'). apply Nq. replace q with q'; [exact Hq'|]. pose proof (nbpos_ok ranks q (Hin q (or_introl eq_refl))) as A. pose proof (nbpos_ok ranks q' (Hin q' (or_intror Hq'))) as B. congruence.
Qed.

(** What rank [s] sends to rank [d] *)
Definition sent (s d : nat) : list (nat * nat) :=
  concat (map (fun b => if mem (im_lo (emaps s) + snd b) (im_ghosts (emaps d)) then [(im_lo (emaps s) + snd b, first_new emaps vmaps marks s + fst b)] else []) (enum (ml s))).
Lemma send_ok s : s < P -> values_to_send P nbx emaps vmaps marks s = Some (map (sent s) (nbrs s)).
Proof.
  intro Hs. unfold values_to_send. rewrite marked_list_ok by exact Hs. cbn [obind]. destruct (edge_rows s Hs) as (ranks & rows & E & ND & En & L & Hrow). rewrite E. cbn [obind].
  assert (Hml : forall b, In b (enum (ml s)) -> snd b < size_local (emaps s)) by (intros [i e] H; apply in_enum_nth in H; apply filter_pos_inv in H; cbn; tauto).
  assert (Hlt : forall b, In b (enum (ml s)) -> exists row, nth_error rows (snd b) = Some row).
  { intros b H. apply nth_error_lt. rewrite L. specialize (Hml b H). unfold edge_count, size_local in *. lia. }
  replace (repeat (@nil (nat * nat)) (length ranks)) with (map (fun _ : nat => @nil (nat * nat)) (seq 0 (length ranks))) by (apply nth_error_ext; intro i; rewrite nth_error_map; destruct (Nat.lt_ge_cases i (length ranks)) as [Q|Q]; [rewrite nth_error_seq, nth_error_repeat by exact Q; reflexivity|replace (nth_error (seq 0 (length ranks)) i) with (@None nat) by (symmetry; apply nth_error_None; rewrite seq_length; lia); symmetry; apply nth_error_None; rewrite repeat_length; lia]).
  rewrite (push_rows (length ranks) _ (fun b => nth (snd b) rows []) (fun b => (im_lo (emaps s) + snd b, first_new emaps vmaps marks s + fst b))).
  - f_equal. rewrite <- En. rewrite (list_seq_map ranks 0) at 2. rewrite map_map. apply map_ext_in. intros k Hk. apply in_seq in Hk. cbn [app]. unfold sent. f_equal. apply map_ext_in. intros b Hb.
    destruct (Hlt b Hb) as (row & Erow). destruct (Hrow _ _ Erow) as (_ & _ & H). rewrite (nth_error_nth _ _ _ Erow). assert (Ek : nth_error ranks k = Some (nth k ranks 0)) by (apply nth_error_nth'; lia). specialize (H _ _ Ek).
    assert (Hd : nth k ranks 0 < P /\ nth k ranks 0 <> s) by (apply nth_error_In in Ek; rewrite En in Ek at 2; apply (nbrs_in P nbx emaps Hnbx He s _ Hs) in Ek as (Q1 & Q2 & _); auto).
    assert (Q : mem k row = mem (im_lo (emaps s) + snd b) (im_ghosts (emaps (nth k ranks 0)))); [|now rewrite Q].
    apply Bool.eq_true_iff_eq. rewrite !mem_iff, H. pose proof (row_owned P emaps He s (snd b) (nth k ranks 0) Hs (Hml b Hb)) as RO. destruct Hd as (Hd1 & Hd2). split; [intro Q; exact (proj2 (proj2 RO (conj Hd1 (conj Hd2 Q))))|intro Q; exact (proj2 (proj2 (proj1 RO (conj Hd1 Q))))].
  - intros [i e] u Hb. destruct (Hlt _ Hb) as (row & Erow). cbn [fst snd] in *. rewrite (slice_at_concat _ _ _ Erow). cbn [obind]. rewrite (l2g_own (emaps s) e (Hml _ Hb)). cbn [obind]. now rewrite (nth_error_nth _ _ _ Erow).
  - intros b Hb. destruct (Hlt b Hb) as (row & Erow). rewrite (nth_error_nth _ _ _ Erow). destruct (Hrow _ _ Erow) as (A & B & _). auto.
Qed.
Lemma received_ok r : r < P -> received_values P nbx emaps vmaps marks r = Some (concat (map (fun s => sent s r) (nbrs r))).
Proof.
  intro Hr. unfold received_values. rewrite (exchange_spec P nbrs nbrs _ sent r); [reflexivity|now apply nbrs_graph|exact Hr|].
  intros s Hs. apply (nbrs_in P nbx emaps Hnbx He r s Hr) in Hs as (Hs & _). rewrite (send_ok s Hs). cbn [obind]. rewrite map_map. reflexivity.
Qed.
Lemma in_sent s d g v : s < P -> In (g, v) (sent s d) <-> exists e, e < size_local (emaps s) /\ mk s e = true /\ g = im_lo (emaps s) + e /\ In g (im_ghosts (emaps d)) /\ v = new_number emaps vmaps marks s e.
Proof.
  intro Hs. unfold sent. rewrite in_concat. split.
  - intros (l & Hl & H). apply in_map_iff in Hl as ([i e] & <- & Hb). cbn [fst snd] in H. destruct (mem _ _) eqn:M; [|destruct H]. destruct H as [[= <- <-]|[]]. apply mem_iff in M.
    apply in_enum_nth in Hb. apply filter_pos_inv in Hb as (A & B & ->). exists e. split; [exact A|]. split; [exact B|]. split; [reflexivity|]. split; [exact M|]. rewrite first_new_ok by exact Hs. reflexivity.
  - intros (e & A & B & -> & M & ->). eexists. split; [apply in_map_iff; exists (marked_before marks s e, e); split; [reflexivity|]|].
    + apply in_enum. apply filter_pos; assumption.
    + cbn [fst snd]. apply mem_iff in M. rewrite M. left. f_equal. rewrite first_new_ok by exact Hs. reflexivity.
Qed.
Lemma sent_keys s d : NoDup (map fst (sent s d)).
Proof.
  unfold sent. rewrite concat_map, map_map. apply DualLocal.NoDup_concat_i.
  - unfold enum. eapply NoDup_map_inv with (f := fst). rewrite map_fst_combine; [apply seq_NoDup|now rewrite seq_length].
  - intros b _. destruct (mem _ _); cbn [map]; repeat constructor. intros [].
  - intros [i e] [i' e'] z H H'. apply in_enum_nth in H, H'. cbn [fst snd]. destruct (mem (im_lo (emaps s) + e) _); [|intros []]. destruct (mem (im_lo (emaps s) + e') _); [|intros _ []]. intros [<-|[]] [Q|[]]. cbn [fst] in Q. assert (e' = e) by lia. subst e'.
    apply filter_pos_inv in H as (_ & _ & ->). apply filter_pos_inv in H' as (_ & _ & ->). reflexivity.
Qed.

(** The owner of an edge and the number of its vertex *)
Definition eowner (r e : nat) : nat := if e <? size_local (emaps r) then r else nth (e - size_local (emaps r)) (im_owners (emaps r)) 0.
Definition enumber (r e : nat) : nat := match local_to_global (emaps r) e with Some g => new_number emaps vmaps marks (eowner r e) (g - im_lo (emaps (eowner r e))) | None => 0 end.
Lemma eowner_ok r e g : r < P -> at_global (emaps r) e g -> eowner r e < P /\ owns (emaps (eowner r e)) g /\ (e < size_local (emaps r) <-> eowner r e = r).
Proof.
  intros Hr H. unfold eowner. destruct (Nat.ltb_spec e (size_local (emaps r))) as [L|L].
  - split; [exact Hr|]. destruct H as [(A & ->)|(k & -> & _)]; [|unfold size_local in L; lia]. split; [unfold owns; lia|tauto].
  - destruct H as [(A & _)|(k & -> & Hk)]; [unfold size_local in L; lia|]. replace (im_hi (emaps r) - im_lo (emaps r) + k - size_local (emaps r)) with k by (unfold size_local; lia).
    destruct (nth_error_lt (im_owners (emaps r)) k) as (o & Ho); [rewrite (mo_len _ _ He r Hr); eapply nth_error_bound; eauto|]. rewrite (nth_error_nth _ _ _ Ho). destruct (mo_owner _ _ He r k g o Hr Hk Ho) as (A & B & C). split; [exact A|]. split; [exact C|]. split; [lia|]. intro. contradiction.
Qed.
Lemma enumber_ok r e g o : r < P -> at_global (emaps r) e g -> o < P -> owns (emaps o) g -> enumber r e = new_number emaps vmaps marks o (g - im_lo (emaps o)).
Proof.
  intros Hr H Ho Hw. destruct (eowner_ok r e g Hr H) as (A & B & _). pose proof (owner_unique P emaps He _ _ g A Ho B Hw) as E. unfold enumber. apply l2g_at in H. now rewrite H, E.
Qed.
Lemma agree r q e e' g : r < P -> q < P -> at_global (emaps r) e g -> at_global (emaps q) e' g -> mk r e = mk q e'.
Proof.
  intros Hr Hq A B. apply Bool.eq_true_iff_eq. rewrite <- !marked_nth. split; intro H; eapply (proj2 Hm); [exact Hr|exact Hq|exact A|exact B|exact H|exact Hq|exact Hr|exact B|exact A|exact H].
Qed.

Lemma new_vertex_map_ok r : r < P -> new_vertex_map P nbx emaps vmaps marks r =
  Some (concat (map (fun e => if mk r e then [enumber r e] else []) (seq 0 (edge_count (emaps r)))), psums (map (@length nat) (map (fun e => if mk r e then [enumber r e] else []) (seq 0 (edge_count (emaps r)))))).
Proof.
  intro Hr. unfold new_vertex_map, edge_to_vertex. rewrite marked_list_ok, received_ok by exact Hr. cbn [obind]. set (data := concat (map (fun s => sent s r) (nbrs r))).
  set (lof := fun g => Z.to_nat (global_to_local (emaps r) g)).
  assert (Hdata : forall g v, In (g, v) data <-> exists e s, s < P /\ s <> r /\ at_global (emaps r) e g /\ owns (emaps s) g /\ mk r e = true /\ v = enumber r e).
  { intros g v. unfold data. rewrite in_concat. split.
    - intros (l & Hl & H). apply in_map_iff in Hl as (s & <- & Hs). apply (nbrs_in P nbx emaps Hnbx He r s Hr) in Hs as (Hs & Hne & _). apply (in_sent s r g v Hs) in H as (e & A & B & -> & M & ->).
      destruct (at_ghost emaps r _ M) as (e' & At). assert (As : at_global (emaps s) e (im_lo (emaps s) + e)) by (left; split; [exact A|reflexivity]). assert (Os : owns (emaps s) (im_lo (emaps s) + e)) by (unfold owns, size_local in *; lia).
      exists e', s. split; [exact Hs|]. split; [exact Hne|]. split; [exact At|]. split; [exact Os|]. split; [rewrite (agree r s e' e _ Hr Hs At As); exact B|]. rewrite (enumber_ok r e' _ s Hr At Hs Os). f_equal. lia.
    - intros (e & s & Hs & Hne & At & Os & B & ->). exists (sent s r). split.
      + apply in_map_iff. exists s. split; [reflexivity|]. apply (nbrs_in P nbx emaps Hnbx He r s Hr). split; [exact Hs|]. split; [exact Hne|]. exists e, g, (g - im_lo (emaps s)). split; [exact At|]. left. unfold owns in Os. lia.
      + apply (in_sent s r g _ Hs). assert (As : at_global (emaps s) (g - im_lo (emaps s)) g) by (left; unfold owns in Os; lia). exists (g - im_lo (emaps s)). split; [unfold owns, size_local in *; lia|]. split; [rewrite <- (agree r s e _ g Hr Hs At As); exact B|]. split; [unfold owns in Os; lia|]. split.
        * destruct At as [(X & Y)|(k & _ & Hk)]; [|eapply nth_error_In; eauto]. exfalso. apply Hne. apply (owner_unique P emaps He s r g Hs Hr Os). unfold owns. lia.
        * apply enumber_ok; assumption. }
  assert (Hlof : forall e g, at_global (emaps r) e g -> global_to_local (emaps r) g = Z.of_nat e).
  { intros e g At. apply g2l_l2g; [exact (mo_range _ _ He r Hr)|exact (mo_once _ _ He r Hr)|exact (fun x => ghost_not_owned P emaps He r x Hr)|now apply l2g_at]. }
  rewrite (omap_map _ (fun gv => (lof (fst gv), snd gv))).
  2: { intros [g v] Hin. cbn [fst snd]. apply Hdata in Hin as (e & s & _ & _ & At & _). unfold lof. rewrite (Hlof e g At). destruct (Z.eqb_spec (Z.of_nat e) (-1)); [lia|reflexivity]. }
  cbn [obind]. set (evs := combine (ml r) (seq (first_new emaps vmaps marks r) (length (ml r))) ++ map (fun gv => (lof (fst gv), snd gv)) data).
  assert (Hrec : forall e v, In (e, v) (map (fun gv => (lof (fst gv), snd gv)) data) <-> size_local (emaps r) <= e < edge_count (emaps r) /\ mk r e = true /\ v = enumber r e).
  { intros e v. rewrite in_map_iff. split.
    - intros ([g v'] & [= Ee Ev] & Hin). cbn [fst snd] in *. subst v'. apply Hdata in Hin as (e' & s & Hs & Hne & At & Os & B & ->). unfold lof in Ee. rewrite (Hlof e' g At), Nat2Z.id in Ee. subst e'.
      split; [|auto]. split; [|eapply at_lt; eauto]. destruct (Nat.lt_ge_cases e (size_local (emaps r))) as [L|L]; [|exact L]. exfalso. destruct (eowner_ok r e g Hr At) as (A1 & A2 & A3). apply A3 in L. apply Hne. rewrite <- L. exact (owner_unique P emaps He _ _ g Hs A1 Os A2).
    - intros ((L1 & L2) & B & ->). destruct (at_ex emaps r e L2) as (g & At). destruct (eowner_ok r e g Hr At) as (A1 & A2 & A3). exists (g, enumber r e). cbn [fst snd]. unfold lof. rewrite (Hlof e g At), Nat2Z.id. split; [reflexivity|]. apply Hdata. exists e, (eowner r e). split; [exact A1|]. split; [intro Q; apply A3 in Q; lia|]. auto 6. }
  assert (Hown : forall e v, In (e, v) (combine (ml r) (seq (first_new emaps vmaps marks r) (length (ml r)))) <-> e < size_local (emaps r) /\ mk r e = true /\ v = enumber r e).
  { assert (Hn : forall e, e < size_local (emaps r) -> enumber r e = first_new emaps vmaps marks r + marked_before marks r e).
    { intros e L. assert (At : at_global (emaps r) e (im_lo (emaps r) + e)) by (left; split; [exact L|reflexivity]). rewrite (enumber_ok r e _ r Hr At Hr) by (unfold owns, size_local in *; lia). rewrite first_new_ok by exact Hr. unfold new_number. do 2 f_equal. lia. }
    intros e v. split.
    - intro H. apply In_nth_error in H as (i & H). apply nth_error_combine2 in H as (H1 & H2). pose proof (nth_error_bound _ _ _ H1) as Hi. rewrite nth_error_seq in H2 by exact Hi. injection H2 as <-. apply filter_pos_inv in H1 as (A & B & ->). split; [exact A|]. split; [exact B|]. rewrite Hn by exact A. reflexivity.
    - intros (A & B & ->). rewrite Hn by exact A. pose proof (filter_pos (mk r) _ e A B) as H1. apply nth_error_In with (n := marked_before marks r e). apply nth_error_combine2. split; [exact H1|]. apply nth_error_seq. eapply nth_error_bound; exact H1. }
  destruct (adj_of_keys evs (mk r) (enumber r) (edge_count (emaps r))) as (offset & Eo & Ed & Ef).
  - unfold evs. rewrite map_app. apply DualPairs.NoDup_app_i.
    + rewrite map_fst_combine by (now rewrite seq_length). apply NoDup_filter, seq_NoDup.
    + rewrite map_map. cbn [fst]. rewrite <- (map_map fst lof). assert (NK : NoDup (map fst data)).
      { unfold data. rewrite concat_map, map_map. apply DualLocal.NoDup_concat_i.
        - now apply nbrs_NoDup.
        - intros s _. apply sent_keys.
        - intros s s' g Hs Hs' H H'. apply (nbrs_in P nbx emaps Hnbx He r s Hr) in Hs as (Hs & _). apply (nbrs_in P nbx emaps Hnbx He r s' Hr) in Hs' as (Hs' & _). apply in_map_iff in H as ((g1 & v1) & <- & H). apply in_map_iff in H' as ((g2 & v2) & E2 & H'). cbn [fst] in E2. subst g2.
          apply (in_sent s r _ _ Hs) in H as (e & A & _ & -> & _). apply (in_sent s' r _ _ Hs') in H' as (e' & A' & _ & E' & _). apply (owner_unique P emaps He s s' (im_lo (emaps s) + e) Hs Hs'); cbn [fst] in *; unfold owns, size_local in *; lia. }
      assert (Hk : forall g, In g (map fst data) -> exists e, at_global (emaps r) e g) by (intros g H; apply in_map_iff in H as ((g1 & v1) & <- & H); apply Hdata in H as (e & s & _ & _ & At & _); eauto).
      revert NK Hk. generalize (map fst data) as K. induction K as [|g K IH]; intros NK Hk; [constructor|]. inversion NK as [|? ? N1 N2]; subst. cbn [map]. constructor; [|apply IH; [exact N2|intros; apply Hk; now right]].
      intro H. apply in_map_iff in H as (g' & E' & H'). destruct (Hk g (or_introl eq_refl)) as (e & At). destruct (Hk g' (or_intror H')) as (e' & At'). unfold lof in E'. rewrite (Hlof _ _ At), (Hlof _ _ At'), !Nat2Z.id in E'. subst e'. apply N1. now rewrite (at_fun _ _ _ _ At At').
    + intros e H H'. apply in_map_iff in H as ((e1 & v1) & <- & H). apply in_map_iff in H' as ((e2 & v2) & E2 & H'). cbn [fst] in *. subst e2. apply Hown in H. apply Hrec in H'. lia.
  - intros e v. unfold evs. rewrite in_app_iff, Hown, Hrec. assert (size_local (emaps r) <= edge_count (emaps r)) by (unfold edge_count, size_local; lia).
    destruct (Nat.lt_ge_cases e (size_local (emaps r))); intuition lia.
  - change (size_local (emaps r) + num_ghosts (emaps r)) with (edge_count (emaps r)). rewrite Eo. cbn [obind]. rewrite Ed, Ef. reflexivity.
Qed.

Lemma new_number_split o e : e < size_local (emaps o) -> mk o e = true -> new_number emaps vmaps marks o e = exscan (new_size emaps vmaps marks) o + (size_local (vmaps o) + marked_before marks o e) /\ marked_before marks o e < marked_before marks o (size_local (emaps o)).
Proof.
  intros L M. split; [unfold new_number, exscan; lia|]. unfold marked_before. eapply nth_error_bound. exact (filter_pos (mk o) _ e L M).
Qed.
Lemma numbering :
  (forall n, n < lsum (map (new_size emaps vmaps marks) (seq 0 P)) -> exists o, o < P /\
     ((exists i, i < size_local (vmaps o) /\ n = old_number emaps vmaps marks o i) \/ exists e, e < size_local (emaps o) /\ mk o e = true /\ n = new_number emaps vmaps marks o e)) /\
  (forall o i, o < P -> i < size_local (vmaps o) -> old_number emaps vmaps marks o i < lsum (map (new_size emaps vmaps marks) (seq 0 P))) /\
  (forall o e, o < P -> e < size_local (emaps o) -> mk o e = true -> new_number emaps vmaps marks o e < lsum (map (new_size emaps vmaps marks) (seq 0 P))) /\
  (forall o o' i i', i < size_local (vmaps o) -> i' < size_local (vmaps o') -> old_number emaps vmaps marks o i = old_number emaps vmaps marks o' i' -> o = o' /\ i = i') /\
  (forall o o' e e', e < size_local (emaps o) -> mk o e = true -> e' < size_local (emaps o') -> mk o' e' = true -> new_number emaps vmaps marks o e = new_number emaps vmaps marks o' e' -> o = o' /\ e = e') /\
  (forall o o' i e, i < size_local (vmaps o) -> e < size_local (emaps o') -> mk o' e = true -> old_number emaps vmaps marks o i <> new_number emaps vmaps marks o' e).
Proof.
  set (sz := new_size emaps vmaps marks).
  assert (Hsz : forall o, sz o = size_local (vmaps o) + marked_before marks o (size_local (emaps o))) by reflexivity.
  split; [|split; [|split; [|split; [|split]]]].
  - intros n Hn. destruct (exscan_split sz P n Hn) as (o & y & Ho & Hy & ->). exists o. split; [exact Ho|]. rewrite Hsz in Hy. destruct (Nat.lt_ge_cases y (size_local (vmaps o))) as [L|L].
    + left. exists y. split; [exact L|reflexivity].
    + right. destruct (nth_error_lt (ml o) (y - size_local (vmaps o))) as (e & Ee); [unfold marked_before in Hy; lia|]. apply filter_pos_inv in Ee as (A & B & C). exists e. split; [exact A|]. split; [exact B|]. unfold new_number. fold (marked_before marks o e) in C. unfold exscan. rewrite <- C. fold sz. lia.
  - intros o i Ho Hi. apply (exscan_bound sz P o i Ho). rewrite Hsz. lia.
  - intros o e Ho L M. destruct (new_number_split o e L M) as (-> & B). apply (exscan_bound sz P o _ Ho). rewrite Hsz. lia.
  - intros o o' i i' Hi Hi' E. apply (exscan_unique sz); [rewrite Hsz; lia|rewrite Hsz; lia|exact E].
  - intros o o' e e' L M L' M' E. destruct (new_number_split o e L M) as (E1 & B). destruct (new_number_split o' e' L' M') as (E2 & B'). rewrite E1, E2 in E. fold sz in E.
    assert (H : o = o' /\ size_local (vmaps o) + marked_before marks o e = size_local (vmaps o') + marked_before marks o' e') by (apply (exscan_unique sz); [rewrite Hsz; lia|rewrite Hsz; lia|exact E]).
    destruct H as (<- & H). split; [reflexivity|]. pose proof (filter_pos (mk o) _ e L M) as F1. pose proof (filter_pos (mk o) _ e' L' M') as F2. unfold marked_before in H. replace (length (filter (mk o) (seq 0 e'))) with (length (filter (mk o) (seq 0 e))) in F2 by lia. congruence.
  - intros o o' i e Hi L M E. destruct (new_number_split o' e L M) as (E1 & B). rewrite E1 in E. fold sz in E. assert (H : o = o' /\ i = size_local (vmaps o') + marked_before marks o' e) by (apply (exscan_unique sz); [rewrite Hsz; lia|rewrite Hsz; lia|exact E]). destruct H as (<- & H). lia.
Qed.
Lemma new_vertices : exists data offsets, forall r, r < P -> new_vertex_map P nbx emaps vmaps marks r = Some (data r, offsets r) /\ length (offsets r) = S (edge_count (emaps r)) /\
  forall e g o, at_global (emaps r) e g -> o < P -> owns (emaps o) g -> slice_at (data r) (offsets r) e = Some (if mk r e then [new_number emaps vmaps marks o (g - im_lo (emaps o))] else []).
Proof.
  eexists _, _. intros r Hr. split; [exact (new_vertex_map_ok r Hr)|]. cbv beta. split; [rewrite psums_length, !map_length, seq_length; reflexivity|].
  intros e g o At Ho Ow. rewrite (slice_at_concat _ e (if mk r e then [enumber r e] else [])).
  - rewrite (enumber_ok r e g o Hr At Ho Ow). reflexivity.
  - rewrite nth_error_map, nth_error_seq by (eapply at_lt; eauto). reflexivity.
Qed.
End Numbers.

(** ** Intervals *)
Section Interval.
Variables (P : nat) (nbx : (nat -> list nat) -> nat -> list nat) (cmaps vmaps : nat -> imap) (c_to_v : nat -> list (list nat)) (cells : option (nat -> list nat)).
Hypothesis (Hnbx : nbx_oracle P nbx) (Hc : maps_ok P cmaps) (Hv : maps_ok P vmaps).
Hypothesis Hch : forall r e, r < P -> chosen cmaps cells r e -> e < edge_count (cmaps r).
Hypothesis Hcv : forall r, r < P -> size_local (cmaps r) <= length (c_to_v r).
Hypothesis Hcv2 : forall r vs, r < P -> In vs (c_to_v r) -> length vs = 2 /\ forall v, In v vs -> v < size_local (vmaps r) + num_ghosts (vmaps r).
Notation marker := (interval_marker P nbx cmaps cells).

(** A cell is marked on a rank if and only if some rank chose it. *)
Lemma interval_marks_ok r : r < P -> interval_marks P nbx cmaps cells r = Some (marker r) /\ length (marker r) = edge_count (cmaps r) /\
  forall e, is_marked marker r e = true <-> exists q e' g, q < P /\ chosen cmaps cells q e' /\ at_global (cmaps q) e' g /\ at_global (cmaps r) e g.
Proof.
  intro Hr. assert (K : exists m, interval_marks P nbx cmaps cells r = Some m /\ length m = edge_count (cmaps r) /\ forall e, nth_error m e = Some true <-> exists q e' g, q < P /\ chosen cmaps cells q e' /\ at_global (cmaps q) e' g /\ at_global (cmaps r) e g).
  { unfold interval_marks. destruct cells as [cs|] eqn:Ecs.
    - set (W := map (fun q => match initial_marks P nbx cmaps (Some cs) q with Some s => s | None => ([], []) end) (seq 0 P)).
      assert (HW : forall q, q < P -> nth_error W q = initial_marks P nbx cmaps (Some cs) q /\ exists s, nth_error W q = Some s /\ st_ok P nbx cmaps q s /\ (forall e, nth_error (fst s) e = Some true <-> chosen cmaps (Some cs) q e) /\ (forall q' e, In e (cs q) -> In q' (edge_nbrs P nbx cmaps q) -> shares cmaps q e q' -> pend P nbx cmaps q (snd s) q' e)).
      { intros q Hq. destruct (initial_ok P nbx cmaps Hnbx Hc (Some cs) q Hq) as (s & Es & St & Hs & Hp); [intros e; apply Hch; exact Hq|]. unfold W. rewrite nth_error_map, nth_error_seq by exact Hq. cbn [option_map plus]. rewrite Es. split; [reflexivity|]. exists s. split; [reflexivity|]. split; [exact St|]. split; [exact Hs|]. exact (Hp cs eq_refl). }
      destruct (update_ok P nbx cmaps Hnbx Hc W r Hr) as (m & s & E & Es & Lm & _ & Hm); [intros q Hq; destruct (HW q Hq) as (_ & s & Es & St & _); eauto|].
      exists m. split.
      + rewrite <- E. unfold update_edges. rewrite (exchange_ext P (edge_nbrs P nbx cmaps) (edge_nbrs P nbx cmaps) (edge_nbrs P nbx cmaps) (edge_nbrs P nbx cmaps) (fun q => s <- nth_error W q ;; data <- omap (omap (local_to_global (cmaps q))) (snd s) ;; let sizes := map (@length nat) (snd s) in Some (concat data, (sizes, psums sizes))) _ r Hr).
        * rewrite (proj1 (HW r Hr)). reflexivity.
        * now apply nbrs_graph.
        * intros q Hq. rewrite (proj1 (HW q Hq)). auto.
      + split; [exact Lm|]. intro e. rewrite Hm. split.
        * intros [(s1 & E1 & H1)|(q & x & g & Hq & (s1 & E1 & Hp) & A & B)].
          -- destruct (HW r Hr) as (_ & s2 & E2 & _ & Hs2 & _). rewrite E1 in E2. injection E2 as <-. apply Hs2 in H1. destruct (at_ex cmaps r e) as (g & At); [now apply Hch|]. exists r, e, g. auto.
          -- destruct (HW q Hq) as (_ & s2 & E2 & St & Hs2 & _). rewrite E1 in E2. injection E2 as <-. destruct St as (_ & _ & St). apply St in Hp as (Hp & _). apply Hs2 in Hp. exists q, x, g. auto.
        * intros (q & e' & g & Hq & Hch' & A & B). destruct (Nat.eq_dec q r) as [->|Ne].
          -- left. rewrite (at_inj P cmaps Hc r _ _ _ Hr B A). destruct (HW r Hr) as (_ & s2 & E2 & _ & Hs2 & _). exists s2. split; [exact E2|]. now apply Hs2.
          -- right. exists q, e', g. split; [exact Hq|]. split; [|auto]. destruct (HW q Hq) as (_ & s2 & E2 & _ & _ & Hp). exists s2. split; [exact E2|]. apply Hp; [exact Hch'| |exists g, e; auto].
             apply (nbrs_in P nbx cmaps Hnbx Hc q r Hq). split; [exact Hr|]. split; [congruence|]. exists e', g, e. auto.
    - destruct (initial_ok P nbx cmaps Hnbx Hc None r Hr) as ((m & u) & Es & (L & _) & Hs & _); [intros e; apply Hch; exact Hr|]. rewrite Es. cbn [obind]. exists m. split; [reflexivity|]. split; [exact L|]. intro e. cbn [fst] in Hs. rewrite Hs. cbn [chosen]. split.
      + intro L'. destruct (at_ex cmaps r e L') as (g & At). exists r, e, g. auto.
      + intros (q & e' & g & _ & _ & _ & At). eapply at_lt; eauto. }
  destruct K as (m & E & L & H). assert (Em : marker r = m) by (unfold interval_marker; now rewrite E). rewrite Em. split; [exact E|]. split; [exact L|]. intro e. rewrite <- H, <- Em. symmetry. apply marked_nth.
Qed.
Lemma interval_marks_agree : marks_ok P cmaps marker.
Proof.
  split; [intros r Hr; exact (proj1 (proj2 (interval_marks_ok r Hr)))|]. intros r q e e' g Hr Hq A B H. apply marked_nth in H. apply marked_nth. destruct (interval_marks_ok r Hr) as (_ & _ & Hr1). destruct (interval_marks_ok q Hq) as (_ & _ & Hq1).
  apply Hr1 in H as (s & x & g' & Hs & Hx & A1 & A2). apply Hq1. exists s, x, g'. split; [exact Hs|]. split; [exact Hx|]. split; [exact A1|]. now rewrite (at_fun _ _ _ _ A2 A).
Qed.
Lemma refined_cells_ok r : r < P -> refined_cells P nbx cmaps cells r = marked_before marker r (size_local (cmaps r)).
Proof.
  intro Hr. unfold refined_cells, marked_before. pose proof (proj1 interval_marks_agree r Hr) as L. assert (Ln : size_local (cmaps r) <= length (marker r)) by (rewrite L; unfold edge_count, size_local; lia). revert Ln. generalize (size_local (cmaps r)) as n.
  induction n as [|n IH]; intro Hn; [reflexivity|]. rewrite seq_S, filter_app, app_length, <- IH by lia. cbn [filter plus]. destruct (nth_error_lt (marker r) n Hn) as (b & Eb).
  assert (Ef : firstn (S n) (marker r) = firstn n (marker r) ++ [b]).
  { clear -Eb. revert n Eb. induction (marker r) as [|a l IH]; intros [|n] Eb; try discriminate; [injection Eb as ->; reflexivity|]. cbn [firstn app]. f_equal. now apply IH. }
  rewrite Ef, countb_app. unfold is_marked. rewrite (nth_error_nth _ _ _ Eb). destruct b; reflexivity.
Qed.
Lemma interval_ok : exists topology parents, forall r, r < P ->
  interval_refinement P nbx cmaps vmaps c_to_v cells false r = Some (topology r, parents r) /\
  exists children, topology r = concat children /\ parents r = concat (map (fun '(c, ch) => map (fun _ => c) ch) (combine (seq 0 (size_local (cmaps r))) children)) /\ length children = size_local (cmaps r) /\
    forall c v0 v1 a b, c < size_local (cmaps r) -> nth_error (c_to_v r) c = Some [v0; v1] -> vertex_number P cmaps vmaps marker r v0 a -> vertex_number P cmaps vmaps marker r v1 b ->
      nth_error children c = Some (halves (is_marked marker r c) a b (new_number cmaps vmaps marker r c)).
Proof.
  pose proof interval_marks_agree as Hm. destruct (adjust_statement P vmaps (refined_cells P nbx cmaps cells) Hv) as (out & Eout & Lout & Oown & Oghost & _). cbv zeta in *.
  set (T := fun r => match interval_refinement P nbx cmaps vmaps c_to_v cells false r with Some x => x | None => ([], []) end).
  exists (fun r => fst (T r)), (fun r => snd (T r)). intros r Hr.
  destruct (new_vertices P nbx cmaps vmaps marker Hnbx Hc Hv Hm) as (data & offs & Hnew). destruct (Hnew r Hr) as (En & _ & Hsl). destruct (interval_marks_ok r Hr) as (Em & Lm & _).
  assert (Hnum : forall v n, nth_error (out r) v = Some n <-> vertex_number P cmaps vmaps marker r v n).
  { assert (Hlo : forall o i, o < P -> i < size_local (vmaps o) -> nth_error (out o) i = Some (old_number cmaps vmaps marker o i)).
    { intros o i Ho Hi. rewrite (Oown o i Ho Hi). f_equal. unfold old_number. f_equal. f_equal. apply map_ext_in. intros q Hq. apply in_seq in Hq. unfold new_size. rewrite refined_cells_ok by lia. reflexivity. }
    assert (Hg : forall v g o, at_global (vmaps r) v g -> o < P -> owns (vmaps o) g -> nth_error (out r) v = Some (old_number cmaps vmaps marker o (g - im_lo (vmaps o)))).
    { intros v g o At Ho Ow. rewrite (Oghost r v o _ g Hr Ho (proj2 (l2g_at _ _ _) At) Ow eq_refl). apply Hlo; [exact Ho|]. unfold owns, size_local in *. lia. }
    intros v n. split.
    - intro H. pose proof (nth_error_bound _ _ _ H) as B. rewrite (Lout r Hr) in B. destruct (at_ex vmaps r v B) as (g & At). destruct (eowner_ok P vmaps Hv r v g Hr At) as (A1 & A2 & _). exists g, (eowner vmaps r v). split; [exact At|]. split; [exact A1|]. split; [exact A2|]. rewrite (Hg v g _ At A1 A2) in H. now injection H as <-.
    - intros (g & o & At & Ho & Ow & ->). now apply Hg. }
  set (ch := fun c => match nth_error (c_to_v r) c with Some [v0; v1] => halves (is_marked marker r c) (nth v0 (out r) 0) (nth v1 (out r) 0) (new_number cmaps vmaps marker r c) | _ => [] end).
  assert (Hcell : forall c, c < size_local (cmaps r) -> exists v0 v1, nth_error (c_to_v r) c = Some [v0; v1] /\ nth_error (out r) v0 = Some (nth v0 (out r) 0) /\ nth_error (out r) v1 = Some (nth v1 (out r) 0)).
  { intros c L. destruct (nth_error_lt (c_to_v r) c) as (vs & Evs); [specialize (Hcv r Hr); lia|]. destruct (Hcv2 r vs Hr (nth_error_In _ _ Evs)) as (L2 & Hvs). destruct vs as [|v0 [|v1 [|? ?]]]; try discriminate. exists v0, v1. split; [exact Evs|].
    split; apply nth_error_nth'; rewrite (Lout r Hr); apply Hvs; cbn; auto. }
  assert (Ecell : forall c, In c (seq 0 (size_local (cmaps r))) -> interval_cell c_to_v (marker r) (data r, offs r) (out r) r c = Some (ch c, map (fun _ => c) (ch c))).
  { intros c H. apply in_seq in H. destruct (Hcell c) as (v0 & v1 & Evs & E0 & E1); [lia|]. unfold interval_cell, ch. rewrite Evs. cbn [obind]. rewrite E0, E1. cbn [obind].
    assert (At : at_global (cmaps r) c (im_lo (cmaps r) + c)) by (left; unfold size_local in H; lia). assert (Lc : c < length (marker r)) by (rewrite Lm; eapply at_lt; eauto). rewrite (nth_error_nth' _ false Lc). cbn [obind fst snd].
    fold (is_marked marker r c). destruct (is_marked marker r c) eqn:Q; [|reflexivity]. rewrite (Hsl c _ r At Hr) by (unfold owns, size_local in *; lia). rewrite Q. cbn [obind]. replace (im_lo (cmaps r) + c - im_lo (cmaps r)) with c by lia. reflexivity. }
  assert (Er : interval_refinement P nbx cmaps vmaps c_to_v cells false r = Some (concat (map ch (seq 0 (size_local (cmaps r)))), concat (map (fun c => map (fun _ => c) (ch c)) (seq 0 (size_local (cmaps r)))))).
  { unfold interval_refinement. rewrite Em. cbn [obind]. rewrite En. cbn [obind]. rewrite (Eout r Hr). cbn [obind]. rewrite (omap_map _ (fun c => (ch c, map (fun _ => c) (ch c)))) by exact Ecell. cbn [obind]. rewrite !map_map. cbn [fst snd]. change (fun x => ch x) with ch.
    replace (length (concat (map ch (seq 0 (size_local (cmaps r)))))) with (size_local (cmaps r) + refined_cells P nbx cmaps cells r); [now rewrite Nat.eqb_refl|].
    rewrite refined_cells_ok by exact Hr. unfold marked_before. assert (Hn : forall n, n <= size_local (cmaps r) -> length (concat (map ch (seq 0 n))) = n + length (filter (is_marked marker r) (seq 0 n))).
    { induction n as [|n IH]; intro Hn; [reflexivity|]. rewrite seq_S, map_app, concat_app, filter_app, !app_length, IH by lia. cbn [map concat filter plus]. rewrite app_nil_r. destruct (Hcell n) as (v0 & v1 & Evs & _); [lia|]. unfold ch. rewrite Evs. unfold halves. destruct (is_marked marker r n); cbn [length]; lia. }
    symmetry. now apply Hn. }
  unfold T. rewrite Er. cbn [fst snd]. split; [reflexivity|]. exists (map ch (seq 0 (size_local (cmaps r)))). split; [reflexivity|]. split; [|split; [now rewrite map_length, seq_length|]].
  - f_equal. generalize (seq 0 (size_local (cmaps r))) as l. induction l as [|c l IH]; [reflexivity|]. cbn [map combine]. f_equal. exact IH.
  - intros c v0 v1 a b L Evs Ha Hb. rewrite nth_error_map, nth_error_seq by exact L. cbn [option_map plus]. unfold ch. rewrite Evs. apply Hnum in Ha, Hb. now rewrite (nth_error_nth _ _ _ Ha), (nth_error_nth _ _ _ Hb).
Qed.
End Interval.
