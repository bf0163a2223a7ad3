(** The ranks that share an edge, and one edge or face at a time. *)
From Verif Require Import Base BaseProofs Algo AlgoProofs World WorldProofs IndexMap IndexMapSpec IndexMapProofs ImSharedProofs
  LocateSpec LocateProofs MatrixPar Marking MarkingSpec.
Open Scope nat_scope.

Section Ranks.
Variables (P : nat) (nbx : (nat -> list nat) -> nat -> list nat) (maps : nat -> imap).
Hypothesis Hnbx : nbx_oracle P nbx.
Hypothesis Hok : maps_ok P maps.

Notation nedges r := (edge_count (maps r)).
Notation nbrs := (edge_nbrs P nbx maps).

(** Edge [e] of rank [r] is also on rank [q]. *)
Definition shares (r e q : nat) : Prop := exists g e', at_global (maps r) e g /\ at_global (maps q) e' g.

Lemma at_lt r e g : at_global (maps r) e g -> e < nedges r.
Proof.
  unfold edge_count. intros [(H & _)|(k & -> & Hk)]; [lia|]. apply nth_error_bound in Hk. lia.
Qed.
Lemma at_ex r e : e < nedges r -> exists g, at_global (maps r) e g.
Proof. intro H. destruct (l2g_ex (maps r) e H) as (g & Hg). exists g. now apply l2g_at. Qed.
Lemma at_ghost q g : In g (im_ghosts (maps q)) -> exists e, at_global (maps q) e g.
Proof. intro H. apply In_nth_error in H as (k & Hk). eexists. right. eauto. Qed.

Lemma row_owned r i q : r < P -> i < im_hi (maps r) - im_lo (maps r) ->
  q < P /\ In (im_lo (maps r) + i) (im_ghosts (maps q)) <-> q < P /\ q <> r /\ shares r i q.
Proof.
  intros Hr Hi. assert (Ho : owns (maps r) (im_lo (maps r) + i)) by (unfold owns; lia). split.
  - intros (Hq & Hg). split; [exact Hq|]. split; [intros ->; exact (ghost_not_owned P maps Hok r _ Hr Hg Ho)|].
    destruct (at_ghost q _ Hg) as (e' & He'). exists (im_lo (maps r) + i), e'. split; [left; auto|exact He'].
  - intros (Hq & Hne & g & e' & [(_ & ->)|(k & Hk & _)] & B); [|lia]. split; [exact Hq|].
    destruct B as [(B1 & B2)|(k & _ & Hk)]; [|eapply nth_error_In; eauto].
    exfalso. apply Hne. apply (owner_unique P maps Hok q r (im_lo (maps r) + i) Hq Hr); [unfold owns; lia|exact Ho].
Qed.
Lemma row_ghost r k g o q : r < P -> nth_error (im_ghosts (maps r)) k = Some g -> nth_error (im_owners (maps r)) k = Some o ->
  q < P /\ q <> r /\ (q = o \/ In g (im_ghosts (maps q))) <-> q < P /\ q <> r /\ shares r (im_hi (maps r) - im_lo (maps r) + k) q.
Proof.
  intros Hr Hg Ho. destruct (mo_owner _ _ Hok r k g o Hr Hg Ho) as (Ho1 & Ho2 & Ho3). split.
  - intros (Hq & Hne & H). split; [exact Hq|]. split; [exact Hne|].
    assert (X : exists e', at_global (maps q) e' g).
    { destruct H as [->|H]; [|now apply at_ghost]. exists (g - im_lo (maps o)). unfold owns in Ho3. left. lia. }
    destruct X as (e' & He'). exists g, e'. split; [|exact He']. right. eauto.
  - intros (Hq & Hne & g' & e' & A & B). split; [exact Hq|]. split; [exact Hne|].
    assert (g' = g) as ->.
    { destruct A as [(A & _)|(k' & Hk & A)]; [lia|]. assert (k' = k) as -> by lia. congruence. }
    destruct B as [(B1 & B2)|(j & _ & Hj)]; [left|right; eapply nth_error_In; eauto].
    apply (owner_unique P maps Hok q o g Hq Ho1); [unfold owns; lia|exact Ho3].
Qed.

Definition nbpos (ranks : list nat) (q : nat) : nat := match index_in q ranks with Some k => k | None => 0 end.
Lemma nbpos_ok ranks q : In q ranks -> nth_error ranks (nbpos ranks q) = Some q.
Proof. intro H. unfold nbpos. destruct (index_in_in _ _ H) as (i & E). rewrite E. now apply index_in_some. Qed.

Lemma edge_ranks_ok r : r < P -> exists ranks rows,
  edge_ranks P nbx maps r = Some (ranks, (concat rows, psums (map (@length nat) rows))) /\
  NoDup ranks /\ length rows = nedges r /\
  (forall q, In q ranks <-> q < P /\ q <> r /\ exists e, shares r e q) /\
  (forall e row, nth_error rows e = Some row ->
     (forall k, In k row -> k < length ranks) /\
     forall k q, nth_error ranks k = Some q -> (In k row <-> shares r e q)).
Proof.
  intro Hr. destruct (i2d_full P maps Hok nbx Hnbx r Hr) as (rows & E & Hl & H1 & H2).
  unfold edge_ranks. rewrite E. cbn [obind].
  set (ranks := sort_uniq (concat rows)).
  assert (Hpos : omap (find_sorted ranks) (concat rows) = Some (map (nbpos ranks) (concat rows))).
  { apply omap_map. intros q Hq. rewrite find_sorted_spec by apply sort_uniq_sorted.
    apply (sort_uniq_in (concat rows) q) in Hq. unfold nbpos. fold ranks in Hq. destruct (index_in_in _ _ Hq) as (i & ->). reflexivity. }
  rewrite Hpos. cbn [obind]. exists ranks, (map (map (nbpos ranks)) rows).
  assert (HL : length rows = nedges r) by (rewrite Hl; reflexivity).
  assert (Hrow : forall e row, nth_error rows e = Some row -> forall q, In q row <-> q < P /\ q <> r /\ shares r e q).
  { intros e row Erow q. pose proof (nth_error_bound _ _ _ Erow) as He. rewrite HL in He. unfold edge_count in He.
    destruct (Nat.lt_ge_cases e (im_hi (maps r) - im_lo (maps r))) as [Ho|Ho].
    - rewrite H1 in Erow by exact Ho. injection Erow as <-. rewrite filter_In, in_seq, mem_iff.
      rewrite <- row_owned by assumption. split; [intros ((_ & Hq) & Hg); auto|intros (Hq & Hg)]; split; [lia|exact Hg].
    - assert (exists k, e = im_hi (maps r) - im_lo (maps r) + k) as (k & ->) by (exists (e - (im_hi (maps r) - im_lo (maps r))); lia).
      destruct (nth_error_lt (im_ghosts (maps r)) k) as (g & Hg); [lia|].
      destruct (nth_error_lt (im_owners (maps r)) k) as (o & Hgo); [rewrite (mo_len _ _ Hok r Hr); lia|].
      pose proof (H2 k g o Hg Hgo) as H3. unfold size_local in H3. rewrite H3 in Erow. injection Erow as <-.
      rewrite <- (row_ghost r k g o q Hr Hg Hgo). unfold see_ghost.
      rewrite filter_In, in_seq, andb_true_iff, orb_true_iff, negb_true_iff, Nat.eqb_neq, Nat.eqb_eq, mem_iff.
      split; [intros ((_ & Hq) & Hne & X)|intros (Hq & Hne & X)]; (split; [lia|auto]). }
  split; [|split; [apply sort_uniq_NoDup|split; [now rewrite map_length|split]]].
  - rewrite map_map. rewrite concat_map. do 3 f_equal. f_equal. apply map_ext. intro. now rewrite map_length.
  - intro q. unfold ranks. rewrite sort_uniq_in, in_concat. split.
    + intros (row & Hin & Hq). apply In_nth_error in Hin as (e & He). apply (Hrow e row He) in Hq as (A & B & C). eauto.
    + intros (Hq & Hne & e & Hs). pose proof Hs as (g & e' & A & _). apply at_lt in A. rewrite <- HL in A.
      destruct (nth_error_lt rows e A) as (row & He). exists row. split; [eapply nth_error_In; eauto|]. apply (Hrow e row He). auto.
  - intros e row' He. rewrite nth_error_map in He. destruct (nth_error rows e) as [row|] eqn:Erow; [|discriminate]. injection He as <-.
    assert (Hin : forall q, In q row -> In q ranks).
    { intros q Hq. apply sort_uniq_in, in_concat. exists row. split; [eapply nth_error_In; eauto|exact Hq]. }
    split.
    + intros k Hk. apply in_map_iff in Hk as (q & <- & Hq). apply nth_error_bound with (x := q). now apply nbpos_ok, Hin.
    + intros k q Hk. rewrite in_map_iff. split.
      * intros (q' & <- & Hq'). rewrite nbpos_ok in Hk by now apply Hin. injection Hk as ->. now apply (Hrow e row Erow).
      * intro Hs. exists q. pose proof (nth_error_In _ _ Hk) as Hq.
        assert (Hq' : q < P /\ q <> r).
        { unfold ranks in Hq. rewrite sort_uniq_in, in_concat in Hq. destruct Hq as (l & Hl' & Hq). apply In_nth_error in Hl' as (e2 & He2).
          apply (Hrow e2 l He2) in Hq. tauto. }
        split; [|apply (Hrow e row Erow); tauto]. unfold nbpos. now rewrite (index_in_nth q ranks k (sort_uniq_NoDup _) Hk).
Qed.

Lemma nbrs_in r q : r < P -> In q (nbrs r) <-> q < P /\ q <> r /\ exists e, shares r e q.
Proof. intro Hr. unfold edge_nbrs. destruct (edge_ranks_ok r Hr) as (ranks & rows & -> & _ & _ & H & _). apply H. Qed.
Lemma nbrs_NoDup r : r < P -> NoDup (nbrs r).
Proof. intro Hr. unfold edge_nbrs. destruct (edge_ranks_ok r Hr) as (ranks & rows & -> & H & _). exact H. Qed.
Lemma shares_sym r e q : shares r e q -> exists e', shares q e' r.
Proof. intros (g & e' & A & B). exists e', g, e. auto. Qed.
Lemma nbrs_graph : graph_ok P nbrs nbrs.
Proof.
  intros r Hr. assert (S : forall d, In d (nbrs r) <-> d < P /\ In r (nbrs d)).
  { intro d. split.
    - intro H. apply nbrs_in in H as (H1 & H2 & e & He); [|exact Hr]. split; [exact H1|]. apply nbrs_in; [exact H1|].
      split; [exact Hr|]. split; [congruence|]. eapply shares_sym; eauto.
    - intros (H1 & H). apply nbrs_in in H as (H2 & H3 & e & He); [|exact H1]. apply nbrs_in; [exact Hr|].
      split; [exact H1|]. split; [congruence|]. eapply shares_sym; eauto. }
  split; [now apply nbrs_NoDup|]. split; [now apply nbrs_NoDup|]. split; exact S.
Qed.

(** ** Marking one edge *)
Notation state := (list bool * list (list nat))%type.
(** The list of updates for neighbour [q] of rank [r] contains [e]. *)
Definition pend (r : nat) (u : list (list nat)) (q e : nat) : Prop :=
  exists k b, nth_error (nbrs r) k = Some q /\ nth_error u k = Some b /\ In e b.

Lemma push_links (ks : list nat) : forall (u : list (list nat)) e, (forall k, In k ks -> k < length u) ->
  exists u', ofold (fun u k => push_back u k e) ks u = Some u' /\ length u' = length u /\
  forall k b', nth_error u' k = Some b' -> exists b, nth_error u k = Some b /\
    forall x, In x b' <-> In x b \/ x = e /\ In k ks.
Proof.
  induction ks as [|k ks IH]; intros u e Hk.
  - exists u. split; [reflexivity|]. split; [reflexivity|]. intros k b Hb. exists b. split; [exact Hb|]. intro x. cbn. tauto.
  - cbn [ofold]. unfold push_back at 1. destruct (modify_some u k (fun b => b ++ [e])) as (u1 & E1); [apply Hk; now left|].
    rewrite E1. cbn [obind]. pose proof (modify_length _ _ _ _ E1) as L1.
    destruct (IH u1 e) as (u' & E & L & N); [intros; rewrite L1; apply Hk; now right|].
    exists u'. split; [exact E|]. split; [congruence|]. intros j b' Hb'. destruct (N j b' Hb') as (b1 & Hb1 & HN).
    rewrite (modify_nth _ _ _ j _ E1) in Hb1. destruct (Nat.eqb_spec k j) as [->|Ne].
    + destruct (nth_error u j) as [b|] eqn:Eb; [|discriminate]. injection Hb1 as <-. exists b. split; [reflexivity|].
      intro x. rewrite HN, in_app_iff. cbn. intuition congruence.
    + exists b1. split; [exact Hb1|]. intro x. rewrite HN. cbn. intuition congruence.
Qed.

Lemma mark_edge_ok r ranks links m u e : r < P -> edge_ranks P nbx maps r = Some (ranks, links) ->
  length m = nedges r -> length u = length ranks -> e < nedges r ->
  exists m' u', mark_edge links (m, u) e = Some (m', u') /\ upd m e true = Some m' /\ length u' = length ranks /\
    forall q x, pend r u' q x <-> pend r u q x \/ x = e /\ In q (nbrs r) /\ shares r e q.
Proof.
  intros Hr Er Lm Lu He. destruct (edge_ranks_ok r Hr) as (ranks' & rows & Er' & _ & Lr & _ & Hrows).
  assert (En : nbrs r = ranks) by (unfold edge_nbrs; now rewrite Er).
  rewrite Er in Er'. injection Er' as <- ->. unfold mark_edge. cbn [fst snd].
  destruct (upd_some m e true) as (m' & Em); [lia|]. rewrite Em. cbn [obind].
  destruct (nth_error_lt rows e) as (row & Erow); [lia|]. rewrite (slice_at_concat _ _ _ Erow). cbn [obind].
  destruct (Hrows e row Erow) as (Hk & Hq). destruct (push_links row u e) as (u' & Eu & Lu' & N); [intros; rewrite Lu; auto|].
  rewrite Eu. cbn [obind]. exists m', u'. split; [reflexivity|]. split; [reflexivity|]. split; [congruence|].
  intros q x. unfold pend. rewrite En. split.
  - intros (k & b' & Hkq & Hb' & Hx). destruct (N k b' Hb') as (b & Hb & HN). apply HN in Hx. destruct Hx as [Hx|(Ex & Hx)]; [|subst x].
    + left. eauto.
    + right. split; [reflexivity|]. split; [eapply nth_error_In; eauto|]. now apply (Hq k q Hkq).
  - intros [(k & b & Hkq & Hb & Hx)|(-> & Hin & Hs)].
    + destruct (nth_error_lt u' k) as (b' & Hb'); [rewrite Lu'; eapply nth_error_bound; eauto|].
      destruct (N k b' Hb') as (b0 & Hb0 & HN). exists k, b'. split; [exact Hkq|]. split; [exact Hb'|]. apply HN. left. congruence.
    + apply In_nth_error in Hin as (k & Hkq). destruct (nth_error_lt u' k) as (b' & Hb'); [rewrite Lu', Lu; eapply nth_error_bound; eauto|].
      destruct (N k b' Hb') as (b0 & Hb0 & HN). exists k, b'. split; [exact Hkq|]. split; [exact Hb'|]. apply HN. right.
      split; [reflexivity|]. now apply (Hq k q Hkq).
Qed.
Lemma pend_nil r n q e : ~ pend r (repeat [] n) q e.
Proof.
  intros (k & b & _ & Hb & Hx). apply nth_error_In, repeat_spec in Hb. subst. destruct Hx.
Qed.

(** ** Counting *)
Lemma countb_upd m e m' : upd m e true = Some m' -> nth_error m e = Some false -> S (countb negb m') = countb negb m.
Proof.
  intros H E. apply upd_split in H as (p & x & q & -> & <- & ->). rewrite nth_error_app2, Nat.sub_diag in E by lia. injection E as ->.
  rewrite !countb_app. cbn. lia.
Qed.
Lemma countb_upd_le m e m' : upd m e true = Some m' -> countb negb m' <= countb negb m.
Proof.
  intro H. apply upd_split in H as (p & x & q & -> & <- & ->). rewrite !countb_app. cbn. destruct x; cbn; lia.
Qed.
Lemma upd_mono m e m' x : upd m e true = Some m' -> nth_error m' x = Some true <-> x = e \/ nth_error m x = Some true.
Proof.
  intro H. rewrite (upd_nth _ _ _ x _ H). destruct (Nat.eqb_spec e x) as [->|Ne]; [tauto|]. intuition congruence.
Qed.
End Ranks.
