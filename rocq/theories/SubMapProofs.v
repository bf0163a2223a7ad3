(** Lemmas about create_sub_index_map. *)
From Verif Require Import Base BaseProofs Algo AlgoProofs World WorldProofs
  IndexMap IndexMapSpec IndexMapProofs ImSharedProofs ScattererProofs SubMap SubMapSpec RoundTrip SubIndices StackProofs.

Section Sub.
Variables (P : nat) (maps : nat -> imap) (indices : nat -> list nat) (preserve : bool).
Hypothesis Hok : maps_ok P maps.
Hypothesis Hind : forall r, r < P -> StronglySorted lt (indices r) /\
  forall i, In i (indices r) -> i < size_local (maps r) + num_ghosts (maps r).

Notation sl q := (size_local (maps q)).
Notation own := (own maps indices).
Notation SB := (SB maps indices).
Notation RX := (RX maps indices).
Notation LO := (LO maps indices).
Notation ghosts_of := (ghosts_of maps indices preserve).
Notation sub_of := (sub_of maps indices preserve).
Notation keeps := (keeps maps indices).

Definition gl q l := match local_to_global (maps q) l with Some g => g | None => 0 end.
Definition nown q l := if l <? sl q then q else own (nth (l - sl q) (im_owners (maps q)) 0) (nth (l - sl q) (im_ghosts (maps q)) 0).

Lemma gl_ok q l : q < P -> In l (indices q) -> local_to_global (maps q) l = Some (gl q l).
Proof.
  intros Hq Hl. unfold gl. destruct (proj2 (l2g_some (maps q) (mo_range _ _ Hok q Hq) l) (proj2 (Hind q Hq) l Hl)) as (g & E). now rewrite E.
Qed.
Lemma gl_marks q l : q < P -> In l (indices q) -> marks maps indices q (gl q l).
Proof. intros Hq Hl. exists l. split; [exact Hl|]. now apply gl_ok. Qed.
Lemma gl_inj q l l' : q < P -> In l (indices q) -> In l' (indices q) -> gl q l = gl q l' -> l = l'.
Proof.
  intros Hq Hl Hl' E. pose proof (gl_ok q l Hq Hl) as H. pose proof (gl_ok q l' Hq Hl') as H'. rewrite E in H.
  assert (G : forall i g, local_to_global (maps q) i = Some g -> global_to_local (maps q) g = Z.of_nat i).
  { apply g2l_l2g; [apply (mo_range _ _ Hok q Hq)|apply (mo_once _ _ Hok q Hq)|intros x Hx; now apply (ghost_not_owned P maps Hok)]. }
  apply G in H, H'. lia.
Qed.
Lemma g2l_gl q l : q < P -> In l (indices q) -> global_to_local (maps q) (gl q l) = Z.of_nat l.
Proof.
  intros Hq Hl. apply g2l_l2g; [apply (mo_range _ _ Hok q Hq)|apply (mo_once _ _ Hok q Hq)|intros x Hx; now apply (ghost_not_owned P maps Hok)|].
  now apply gl_ok.
Qed.

Lemma ghost_data q l : q < P -> In l (indices q) -> sl q <= l -> exists i g s, l = sl q + i /\
  nth_error (im_ghosts (maps q)) i = Some g /\ nth_error (im_owners (maps q)) i = Some s /\ gl q l = g /\ nown q l = own s g /\
  In (g, i) (SB q s) /\ s < P /\ owns (maps s) g /\ s <> q.
Proof.
  intros Hq Hl Hge. pose proof (proj2 (Hind q Hq) l Hl) as Hb. unfold num_ghosts in Hb.
  destruct (nth_error_lt (im_ghosts (maps q)) (l - sl q)) as (g & Hg); [lia|].
  destruct (nth_error_lt (im_owners (maps q)) (l - sl q)) as (s & Hs); [rewrite (mo_len _ _ Hok q Hq); lia|].
  exists (l - sl q), g, s. destruct (mo_owner _ _ Hok q _ g s Hq Hg Hs) as (HsP & N & Hw).
  split; [lia|]. split; [exact Hg|]. split; [exact Hs|]. split.
  - unfold gl, local_to_global. destruct (Nat.ltb_spec l (sl q)); [lia|]. now rewrite Hg.
  - split.
    + unfold nown. destruct (Nat.ltb_spec l (sl q)); [lia|]. now rewrite (nth_error_nth _ _ _ Hg), (nth_error_nth _ _ _ Hs).
    + split; [|auto]. apply (SB_in P maps indices Hok); [exact Hq|]. split; [exact Hg|]. split; [exact Hs|]. now replace (sl q + (l - sl q)) with l by lia.
Qed.

Lemma SB_RX q s g i : In (g, i) (SB q s) -> In g (RX q s).
Proof. intro H. unfold SubIndices.RX. apply in_map_iff. exists (g, i). auto. Qed.

Lemma nown_new_owner q l : q < P -> In l (indices q) -> new_owner P maps indices (gl q l) (nown q l).
Proof.
  intros Hq Hl. destruct (le_lt_dec (sl q) l) as [L|L].
  - destruct (ghost_data q l Hq Hl L) as (i & g & s & El & Hg & Hs & Eg & En & HSB & HsP & Hw & N). rewrite Eg, En.
    pose proof (SB_RX _ _ _ _ HSB) as HR.
    destruct (own_spec P maps indices Hok s q g HsP Hq HR) as [(K & E)|(K & HoP & Hgo & Hmin)].
    + rewrite E. split; [exact HsP|]. split; [now apply (keeps_iff P maps indices Hok)|now left].
    + split; [exact HoP|]. pose proof Hgo as Hgo'. apply (RX_in P maps indices Hok) in Hgo' as (_ & _ & Hm); auto. split; [exact Hm|]. right.
      assert (Hns : ~ marks maps indices s g) by (intro Hms; apply (keeps_iff P maps indices Hok s g HsP Hw) in Hms; congruence).
      split.
      * intros r Hr Hwr. now replace r with s by (eapply owner_unique; eauto).
      * intros r Hr Hmr. apply Hmin; [exact Hr|]. apply (RX_in P maps indices Hok); auto. split; [|auto]. intros ->. contradiction.
  - unfold nown. destruct (Nat.ltb_spec l (sl q)); [|lia]. split; [exact Hq|]. split; [now apply gl_marks|]. left.
    unfold gl, local_to_global. destruct (Nat.ltb_spec l (sl q)); [|lia]. unfold owns. unfold size_local in L. lia.
Qed.

Lemma new_owner_unique g o o' : new_owner P maps indices g o -> new_owner P maps indices g o' -> o = o'.
Proof.
  intros (Ho & Hm & H) (Ho' & Hm' & H'). destruct H as [H|(H1 & H2)], H' as [H'|(H1' & H2')].
  - eapply owner_unique; eauto.
  - exfalso. exact (H1' o Ho H Hm).
  - exfalso. exact (H1 o' Ho' H' Hm').
  - specialize (H2 o' Ho' Hm'). specialize (H2' o Ho Hm). lia.
Qed.

Lemma nown_global q l q' l' : q < P -> q' < P -> In l (indices q) -> In l' (indices q') -> gl q l = gl q' l' -> nown q l = nown q' l'.
Proof.
  intros Hq Hq' Hl Hl' E. eapply new_owner_unique; [now apply nown_new_owner|]. rewrite E. now apply nown_new_owner.
Qed.

Lemma LO_in q l o : q < P -> In (l, o) (LO q) <-> In l (indices q) /\ sl q <= l /\ o = nown q l.
Proof.
  intro Hq. unfold SubIndices.LO. rewrite in_concat. split.
  - intros (x & Hx & H). apply in_map_iff in Hx as (s & <- & Hs). apply in_map_iff in H as ([g i] & E & Hi). cbn in E. injection E as <- <-.
    apply (SB_in P maps indices Hok) in Hi as (Hg & Ho & Hi); [|exact Hq]. split; [exact Hi|]. split; [lia|].
    unfold nown. destruct (Nat.ltb_spec (sl q + i) (sl q)); [lia|]. replace (sl q + i - sl q) with i by lia.
    now rewrite (nth_error_nth _ _ _ Hg), (nth_error_nth _ _ _ Ho).
  - intros (Hl & Hge & ->). destruct (ghost_data q l Hq Hl Hge) as (i & g & s & El & Hg & Hs & Eg & En & HSB & HsP & Hw & N).
    exists (map (fun p => (sl q + snd p, own s (fst p))) (SB q s)). split.
    + apply in_map_iff. exists s. split; [reflexivity|]. apply (src_in P maps Hok); [exact Hq|]. eapply nth_error_In; eauto.
    + apply in_map_iff. exists (g, i). cbn. now rewrite <- El, En.
Qed.

Lemma LO_NoDup q : q < P -> NoDup (map fst (LO q)).
Proof.
  intro Hq. unfold SubIndices.LO. rewrite concat_map, map_map.
  replace (map (fun s => map fst (map (fun p => (sl q + snd p, own s (fst p))) (SB q s))) (im_src (maps q)))
    with (map (fun s => map (fun i => sl q + i) (map snd (SB q s))) (im_src (maps q))).
  - rewrite <- (map_map (fun s => map snd (SB q s)) (map (fun i => sl q + i))), <- concat_map.
    apply NoDup_map_inj; [apply blk_snd_NoDup, SS_lt_NoDup, (mo_src _ _ Hok q Hq)|]. intros; lia.
  - apply map_ext. intro s. now rewrite !map_map.
Qed.

Lemma ghosts_of_perm q : Permutation (ghosts_of q) (filter (fun p => negb (snd p =? q)) (LO q)).
Proof. unfold SubIndices.ghosts_of. destruct preserve; [|reflexivity]. apply Permutation_sym, isort_perm. Qed.

Lemma ghosts_of_in q l o : q < P -> In (l, o) (ghosts_of q) <-> In l (indices q) /\ o = nown q l /\ o <> q.
Proof.
  intro Hq. split.
  - intro H. apply (Permutation_in _ (ghosts_of_perm q)) in H. apply filter_In in H as (H & N). apply LO_in in H as (H1 & H2 & H3); [|exact Hq].
    cbn in N. apply negb_true_iff, Nat.eqb_neq in N. auto.
  - intros (Hl & -> & N). apply (Permutation_in _ (Permutation_sym (ghosts_of_perm q))). apply filter_In. split.
    + apply LO_in; [exact Hq|]. split; [exact Hl|]. split; [|reflexivity]. unfold nown in N. destruct (Nat.ltb_spec l (sl q)); [contradiction|lia].
    + cbn. now apply negb_true_iff, Nat.eqb_neq.
Qed.
Lemma NoDup_map_filter {A B} (f : A -> B) (p : A -> bool) l : NoDup (map f l) -> NoDup (map f (filter p l)).
Proof.
  induction l as [|x t IH]; cbn; intro H; [constructor|]. inversion_clear H as [|? ? Hx Ht]. destruct (p x); [|auto]. cbn. constructor; [|auto].
  intro Hi. apply Hx. apply in_map_iff in Hi as (y & E & Hy). apply filter_In in Hy as (Hy & _). apply in_map_iff. eauto.
Qed.
Lemma ghosts_of_NoDup q : q < P -> NoDup (map fst (ghosts_of q)).
Proof.
  intro Hq. eapply Permutation_NoDup; [apply Permutation_map, Permutation_sym, ghosts_of_perm|]. now apply NoDup_map_filter, LO_NoDup.
Qed.

Lemma owned_in q l : q < P -> In l (sb_owned (sub_of q)) <-> In l (indices q) /\ nown q l = q.
Proof.
  intro Hq. unfold SubIndices.sub_of. cbn [sb_owned]. rewrite isort_in, in_app_iff, filter_In, Nat.ltb_lt, in_map_iff. split.
  - intros [(Hl & L)|([l' o] & E & H)].
    + split; [exact Hl|]. unfold nown. destruct (Nat.ltb_spec l (sl q)); [reflexivity|lia].
    + cbn in E. subst l'. apply filter_In in H as (H & E). apply LO_in in H as (H1 & H2 & H3); [|exact Hq]. cbn in E. apply Nat.eqb_eq in E. split; congruence.
  - intros (Hl & E). destruct (le_lt_dec (sl q) l) as [L|L]; [|left; auto]. right. exists (l, q). split; [reflexivity|].
    apply filter_In. split; [|cbn; apply Nat.eqb_refl]. apply LO_in; auto.
Qed.

Lemma SS_le_NoDup_lt l : StronglySorted le l -> NoDup l -> StronglySorted lt l.
Proof.
  induction 1 as [|x t Hs IH Hx]; intro Hn; constructor; inversion_clear Hn as [|? ? Hni Hn']; [auto|].
  rewrite Forall_forall in *. intros y Hy. specialize (Hx y Hy). assert (x <> y) by (intros ->; contradiction). lia.
Qed.

Lemma owned_sorted q : q < P -> StronglySorted lt (sb_owned (sub_of q)).
Proof.
  intro Hq. apply SS_le_NoDup_lt; [apply nsort_sorted|]. unfold SubIndices.sub_of. cbn [sb_owned]. apply NoDup_isort, NoDup_app_intro.
  - apply NoDup_filter, SS_lt_NoDup, (Hind q Hq).
  - now apply NoDup_map_filter, LO_NoDup.
  - intros x Hx Hx'. apply filter_In in Hx as (_ & Hx). apply Nat.ltb_lt in Hx. apply in_map_iff in Hx' as ([l o] & E & H). cbn in E. subst l.
    apply filter_In in H as (H & _). apply LO_in in H as (_ & H & _); [lia|exact Hq].
Qed.

Lemma s2p_perm q : q < P -> Permutation (sb_owned (sub_of q) ++ sb_ghost (sub_of q)) (indices q).
Proof.
  intro Hq. apply NoDup_Permutation.
  - apply NoDup_app_intro; [apply SS_lt_NoDup; now apply owned_sorted|now apply ghosts_of_NoDup|].
    intros l Hl Hl'. apply owned_in in Hl as (_ & E); [|exact Hq]. cbn [SubIndices.sub_of sb_ghost] in Hl'.
    apply in_map_iff in Hl' as ([l' o] & E' & H). cbn in E'. subst l'. apply ghosts_of_in in H as (_ & -> & N); [congruence|exact Hq].
  - apply SS_lt_NoDup, (Hind q Hq).
  - intro l. rewrite in_app_iff, owned_in by exact Hq. cbn [SubIndices.sub_of sb_ghost]. rewrite in_map_iff. split.
    + intros [(Hl & _)|([l' o] & E' & H)]; [exact Hl|]. cbn in E'. subst l'. now apply ghosts_of_in in H as (? & _).
    + intro Hl. destruct (Nat.eq_dec (nown q l) q) as [E|N]; [left; auto|]. right. exists (l, nown q l). split; [reflexivity|]. apply ghosts_of_in; auto.
Qed.

(** The new owner has the index among its owned ones. *)
Lemma owner_holds q l : q < P -> In l (indices q) -> exists l', In l' (sb_owned (sub_of (nown q l))) /\ gl (nown q l) l' = gl q l /\ nown q l < P.
Proof.
  intros Hq Hl. destruct (nown_new_owner q l Hq Hl) as (HoP & (l' & Hl' & El') & _). exists l'.
  assert (E : gl (nown q l) l' = gl q l) by (unfold gl at 1; now rewrite El').
  split; [|auto]. apply owned_in; [exact HoP|]. split; [exact Hl'|]. now apply nown_global.
Qed.

Lemma sub_dest_in q x : q < P -> In x (sb_dest (sub_of q)) <-> x < P /\ In q (sb_owners (sub_of x)).
Proof.
  intro Hq. unfold SubIndices.sub_of at 1. cbn [sb_dest]. rewrite sort_uniq_in, in_app_iff.
  assert (Hown : x < P -> In q (sb_owners (sub_of x)) <-> exists l, In l (indices x) /\ q = nown x l /\ q <> x).
  { intro Hx. cbn [SubIndices.sub_of sb_owners]. rewrite in_map_iff. split.
    - intros ([l o] & E & H). cbn in E. subst o. apply ghosts_of_in in H; [|exact Hx]. eauto.
    - intros (l & H). exists (l, q). split; [reflexivity|]. now apply ghosts_of_in. }
  assert (Hvia : forall s g, x < P -> s < P -> In g (RX x s) -> exists l, In l (indices x) /\ nown x l = own s g).
  { intros s g Hx Hs Hg. unfold SubIndices.RX in Hg. apply in_map_iff in Hg as ([g' i] & E & Hi). cbn in E. subst g'.
    apply (SB_in P maps indices Hok) in Hi as (Hg & Ho & Hi); [|exact Hx]. exists (sl x + i). split; [exact Hi|].
    unfold nown. destruct (Nat.ltb_spec (sl x + i) (sl x)); [lia|]. replace (sl x + i - sl x) with i by lia.
    now rewrite (nth_error_nth _ _ _ Hg), (nth_error_nth _ _ _ Ho). }
  split.
  - intros [H|H].
    + unfold dest0 in H. apply in_concat in H as (y & Hy & H). apply in_map_iff in Hy as ([[d g] b] & <- & He).
      apply (ents_in P maps indices Hok q) in He as (Hd & Hg & ->); [|exact Hq]. destruct (keeps q g) eqn:K; [|destruct H]. destruct H as [->|[]].
      split; [exact Hd|]. apply Hown; [exact Hd|]. destruct (Hvia q g Hd Hq Hg) as (l & Hl & E). exists l. split; [exact Hl|].
      split; [|apply (RX_in P maps indices Hok) in Hg as (N & _); auto]. rewrite E. unfold SubIndices.own. now rewrite K.
    + apply in_concat in H as (y & Hy & H). apply in_map_iff in Hy as (s & <- & Hs). apply (src_in P maps Hok) in Hs; [|exact Hq].
      destruct (owner_lt P maps Hok q s Hq Hs) as (HsP & _). apply (ND_in P maps indices Hok s q x) in H as (g & Hg & E & Hx & N & Hgx); auto.
      split; [exact Hx|]. apply Hown; [exact Hx|]. destruct (Hvia s g Hx HsP Hgx) as (l & Hl & E'). exists l. split; [exact Hl|]. split; congruence.
  - intros (Hx & H). apply Hown in H as (l & Hl & E & N); [|exact Hx].
    assert (L : sl x <= l) by (unfold nown in E; destruct (Nat.ltb_spec l (sl x)); [congruence|lia]).
    destruct (ghost_data x l Hx Hl L) as (i & g & s & El & Hg & Hs & Eg & En & HSB & HsP & Hw & N').
    pose proof (SB_RX _ _ _ _ HSB) as HR. rewrite En in E.
    destruct (own_spec P maps indices Hok s x g HsP Hx HR) as [(K & E')|(K & HoP & Hgo & _)].
    + left. assert (q = s) by congruence. subst s. unfold dest0. apply in_concat. exists [x]. split; [|now left].
      apply in_map_iff. exists (x, g, true). split; [reflexivity|]. apply (ents_in P maps indices Hok q); auto.
    + right. rewrite <- E in Hgo. apply in_concat. exists (ND maps indices s q). split.
      * apply in_map_iff. exists s. split; [reflexivity|]. unfold SubIndices.RX in Hgo. apply in_map_iff in Hgo as ([g' j] & E' & Hj).
        apply (SB_in P maps indices Hok) in Hj as (_ & Ho & _); [|exact Hq]. apply (src_in P maps Hok); [exact Hq|]. eapply nth_error_In; eauto.
      * apply (ND_in P maps indices Hok); auto. exists g. repeat split; auto.
Qed.

Lemma sub_owner_lt q o : q < P -> In o (sb_owners (sub_of q)) -> o < P /\ o <> q.
Proof.
  intros Hq H. cbn [SubIndices.sub_of sb_owners] in H. apply in_map_iff in H as ([l o'] & E & H). cbn in E. subst o'.
  apply ghosts_of_in in H as (Hl & -> & N); [|exact Hq]. split; [|exact N]. now destruct (nown_new_owner q l Hq Hl).
Qed.

(** Everything below is about the submaps [subs], given by [sub_of] on existing ranks. *)
Variable subs : nat -> submap.
Hypothesis Hsubs : forall q, q < P -> subs q = sub_of q.
Let local_size q := length (sb_owned (subs q)).
Let offset := exscan local_size.

Lemma sub_graph : graph_ok P (fun q => sb_dest (subs q)) (fun q => sb_src (subs q)).
Proof.
  intros r Hr. rewrite (Hsubs r Hr). cbn [SubIndices.sub_of sb_src]. split; [apply sort_uniq_NoDup|]. split; [apply sort_uniq_NoDup|]. split; intro d.
  - rewrite sort_uniq_in. split.
    + intro H. destruct (sub_owner_lt r d Hr H) as (Hd & _). split; [exact Hd|]. rewrite (Hsubs d Hd). now apply sub_dest_in.
    + intros (Hd & H). rewrite (Hsubs d Hd) in H. now apply sub_dest_in in H.
  - rewrite sub_dest_in by exact Hr. split; intros (Hd & H); (split; [exact Hd|]); rewrite (Hsubs d Hd) in *; cbn [SubIndices.sub_of sb_src] in *; [now apply sort_uniq_in|].
    apply (proj1 (sort_uniq_in _ _)) in H. exact H.
Qed.

Definition GN q := map (fun p => gl q (fst p)) (ghosts_of q).
Definition SB2 q s := blk (GN q) (map snd (ghosts_of q)) (repeat true (length (ghosts_of q))) s.

Lemma SB2_in q s g i : In (g, i) (SB2 q s) <-> exists l, nth_error (ghosts_of q) i = Some (l, s) /\ g = gl q l.
Proof.
  unfold SB2, GN. rewrite blk_in by (rewrite ?repeat_length, !map_length; reflexivity). rewrite !nth_error_map_some. split.
  - intros (Hg & Hs & _). destruct (nth_error (ghosts_of q) i) as [[l o]|] eqn:E; [|discriminate]. cbn in *. injection Hg as <-. injection Hs as ->. eauto.
  - intros (l & E & ->). rewrite E. cbn. repeat split. apply nth_error_repeat. eapply nth_error_bound; eauto.
Qed.

Lemma sgi_send_ok q : q < P -> sgi_send maps subs q = Some (sendval (sb_src (subs q)) (SB2 q)).
Proof.
  intro Hq. unfold sgi_send. rewrite (Hsubs q Hq). cbn [SubIndices.sub_of sb_ghost sb_src sb_owners].
  rewrite omap_map with (g := gl q).
  - cbn [obind]. rewrite map_map. fold (GN q). rewrite map_length. apply cgo_send_ok.
    + apply sort_uniq_sorted.
    + unfold GN. now rewrite !map_length.
    + unfold GN. now rewrite repeat_length, map_length.
    + intros o Ho. now apply sort_uniq_in.
  - intros l Hl. apply in_map_iff in Hl as ([l' o] & E & H). cbn in E. subst l'. apply gl_ok; [exact Hq|]. now apply ghosts_of_in in H as (? & _).
Qed.

Definition newidx r g := match find_sorted (sb_owned (sub_of r)) (Z.to_nat (global_to_local (maps r) g)) with Some k => k + offset r | None => 0 end.

Lemma newidx_spec r l : r < P -> In l (sb_owned (sub_of r)) -> exists k,
  find_sorted (sb_owned (sub_of r)) (Z.to_nat (global_to_local (maps r) (gl r l))) = Some k /\
  nth_error (sb_owned (sub_of r)) k = Some l /\ newidx r (gl r l) = k + offset r.
Proof.
  intros Hr Hl. pose proof Hl as Hl'. apply owned_in in Hl' as (Hi & _); [|exact Hr]. unfold newidx. rewrite (g2l_gl r l Hr Hi), Nat2Z.id.
  rewrite find_sorted_spec by now apply owned_sorted. destruct (index_in_in l _ Hl) as (k & E). rewrite E. exists k. split; [reflexivity|].
  split; [|reflexivity]. now apply index_in_some.
Qed.

Lemma sgi_back_ok r : r < P -> sgi_back P maps subs offset r
  = Some (concat (map (fun q => map (newidx r) (map fst (SB2 q r))) (sb_dest (subs r))), map (fun q => length (map fst (SB2 q r))) (sb_dest (subs r))).
Proof.
  intro Hr. unfold sgi_back. rewrite (forward_ok P (fun q => sb_src (subs q)) (fun q => sb_dest (subs q)) (sgi_send maps subs) SB2 sub_graph sgi_send_ok r Hr).
  cbn [obind]. rewrite (omap_concat _ (newidx r)).
  - cbn [obind]. now rewrite map_map.
  - intros x g Hx Hg. apply in_map_iff in Hx as (q & <- & Hq). apply in_map_iff in Hg as ([g' i] & E & Hi). cbn in E. subst g'.
    assert (HqP : q < P) by (apply (sub_graph r Hr) in Hq; tauto).
    apply SB2_in in Hi as (l & Hn & ->). apply nth_error_In in Hn. apply ghosts_of_in in Hn as (Hl & -> & N); [|exact HqP].
    destruct (owner_holds q l HqP Hl) as (l' & Hl' & E & _). rewrite <- E. rewrite (Hsubs _ Hr).
    destruct (newidx_spec (nown q l) l' Hr Hl') as (k & E1 & E2 & E3). rewrite E1.
    assert (In l' (indices (nown q l))) as Hi by (now apply owned_in in Hl').
    rewrite (g2l_gl _ _ Hr Hi). destruct (Z.leb_spec 0 (Z.of_nat l')); [|lia]. cbn [obind]. now rewrite E3.
Qed.

Lemma ghost_indices_ok q : q < P -> compute_submap_ghost_indices P maps subs offset q
  = Some (map (fun p => newidx (snd p) (gl q (fst p))) (ghosts_of q)).
Proof.
  intro Hq. unfold compute_submap_ghost_indices. rewrite (sgi_send_ok q Hq). unfold sendval. cbn [obind].
  rewrite (reply_ok P (fun q => sb_src (subs q)) (fun q => sb_dest (subs q)) (sgi_send maps subs) SB2 sub_graph sgi_send_ok (sgi_back P maps subs offset) newidx q Hq).
  2:{ intros s Hs. apply sgi_back_ok. apply (sub_graph q Hq) in Hs. tauto. }
  cbn [obind]. rewrite answers_eq.
  rewrite (upd_all_full _ (fun i => newidx (nth i (map snd (ghosts_of q)) 0) (nth i (GN q) 0)) (length (ghosts_of q))).
  - f_equal. apply (map_seq_nth _ (fun p => newidx (snd p) (gl q (fst p)))). intros k [l o] Hk.
    unfold GN. rewrite (nth_error_nth (map snd (ghosts_of q)) k 0 (x := o)) by (rewrite nth_error_map_some, Hk; reflexivity).
    rewrite (nth_error_nth (map (fun p => gl q (fst p)) (ghosts_of q)) k 0 (x := gl q l)) by (rewrite nth_error_map_some, Hk; reflexivity). reflexivity.
  - rewrite answers_fst. apply blk_snd_NoDup. rewrite (Hsubs q Hq). apply sort_uniq_NoDup.
  - rewrite repeat_length, (Hsubs q Hq). cbn [SubIndices.sub_of sb_ghost]. apply map_length.
  - intros i v Hi. apply in_concat in Hi as (x & Hx & Hi). apply in_map_iff in Hx as (s & <- & Hs). apply in_map_iff in Hi as ([g j] & E & Hj).
    cbn in E. injection E as <- <-. apply SB2_in in Hj as (l & Hn & ->). split; [eapply nth_error_bound; eauto|].
    unfold GN. rewrite (nth_error_nth (map snd (ghosts_of q)) j 0 (x := s)) by (rewrite nth_error_map_some, Hn; reflexivity).
    rewrite (nth_error_nth (map (fun p => gl q (fst p)) (ghosts_of q)) j 0 (x := gl q l)) by (rewrite nth_error_map_some, Hn; reflexivity). reflexivity.
  - intros i Hi. rewrite answers_fst. destruct (nth_error_lt (ghosts_of q) i Hi) as ([l s] & Hn). apply in_concat. exists (map snd (SB2 q s)). split.
    + apply in_map_iff. exists s. split; [reflexivity|]. rewrite (Hsubs q Hq). cbn [SubIndices.sub_of sb_src]. apply sort_uniq_in.
      apply in_map_iff. exists (l, s). split; [reflexivity|]. eapply nth_error_In; eauto.
    + apply in_map_iff. exists (gl q l, i). split; [reflexivity|]. apply SB2_in. eauto.
Qed.

Definition result q := mkIM (offset q) (offset q + local_size q) (allreduce_sum P local_size)
  (map (fun p => newidx (snd p) (gl q (fst p))) (ghosts_of q)) (map snd (ghosts_of q)) (sb_src (subs q)) (sb_dest (subs q)).

(** The number of a marked index. *)
Definition num q l := newidx (nown q l) (gl q l).

Lemma num_shape q l : q < P -> In l (indices q) -> exists k l', nth_error (sb_owned (sub_of (nown q l))) k = Some l' /\ gl (nown q l) l' = gl q l /\
  num q l = offset (nown q l) + k /\ k < local_size (nown q l) /\ nown q l < P.
Proof.
  intros Hq Hl. destruct (owner_holds q l Hq Hl) as (l' & Hl' & E & HoP). destruct (newidx_spec _ l' HoP Hl') as (k & _ & Hk & En).
  exists k, l'. split; [exact Hk|]. split; [exact E|]. unfold num. rewrite <- E, En. split; [lia|]. split; [|exact HoP].
  unfold local_size. rewrite (Hsubs _ HoP). eapply nth_error_bound; eauto.
Qed.

Lemma num_iff q l q' l' : q < P -> q' < P -> In l (indices q) -> In l' (indices q') -> num q l = num q' l' <-> gl q l = gl q' l'.
Proof.
  intros Hq Hq' Hl Hl'. split.
  - intro E. destruct (num_shape q l Hq Hl) as (k & a & Ha & Ga & Na & Ka & HP).
    destruct (num_shape q' l' Hq' Hl') as (k' & a' & Ha' & Ga' & Na' & Ka' & HP'). rewrite Na, Na' in E.
    destruct (exscan_unique _ _ _ _ _ Ka Ka' E) as (Eo & <-). rewrite <- Eo in *. rewrite Ha in Ha'. injection Ha' as <-. congruence.
  - intro E. unfold num. now rewrite (nown_global q l q' l' Hq Hq' Hl Hl' E), E.
Qed.

Lemma create_ok_q q : q < P -> 
  (gidx <- compute_submap_ghost_indices P maps subs offset q ;;
   m <- imap_src_dest P local_size (sb_src (subs q), sb_dest (subs q)) gidx (sb_owners (subs q)) q ;;
   Some (m, sb_owned (subs q) ++ sb_ghost (subs q))) = Some (result q, sb_owned (sub_of q) ++ sb_ghost (sub_of q)).
Proof.
  intro Hq. rewrite (ghost_indices_ok q Hq). cbn [obind]. unfold result, imap_src_dest. rewrite (Hsubs q Hq).
  replace (sb_owners (sub_of q)) with (map snd (ghosts_of q)) by reflexivity.
  rewrite !map_length, Nat.eqb_refl. reflexivity.
Qed.

Lemma result_ok : maps_ok P result.
Proof.
  constructor; cbn [result im_lo im_hi im_ghosts im_owners im_src im_dest].
  - reflexivity.
  - intros r Hr. unfold offset. rewrite exscan_S. reflexivity.
  - intros; lia.
  - intros. now rewrite !map_length.
  - intros r Hr. assert (G : forall L, NoDup (map fst L) -> (forall p, In p L -> In p (ghosts_of r)) -> NoDup (map (fun p => newidx (snd p) (gl r (fst p))) L)).
    { induction L as [|[l o] t IH]; intros Hn Hs; cbn [map]; [constructor|]. inversion_clear Hn as [|? ? Hx Ht]. constructor; [|apply IH; [exact Ht|intros; apply Hs; now right]].
      intro H. apply in_map_iff in H as ([l' o'] & E & H). cbn [fst snd] in *.
      pose proof (Hs _ (or_introl eq_refl)) as H1. pose proof (Hs _ (or_intror H)) as H2.
      apply ghosts_of_in in H1 as (Hl & -> & _); [|exact Hr]. apply ghosts_of_in in H2 as (Hl' & -> & _); [|exact Hr].
      apply (num_iff r l' r l Hr Hr Hl' Hl) in E. apply gl_inj in E; auto. subst l'. apply Hx. apply in_map_iff. exists (l, nown r l). auto. }
    apply G; [now apply ghosts_of_NoDup|auto].
  - intros r k g o Hr Hg Ho. rewrite nth_error_map_some in Hg, Ho. destruct (nth_error (ghosts_of r) k) as [[l o']|] eqn:E; [|discriminate].
    cbn in Hg, Ho. injection Hg as <-. injection Ho as ->. apply nth_error_In in E. apply ghosts_of_in in E as (Hl & -> & N); [|exact Hr].
    destruct (num_shape r l Hr Hl) as (k' & l' & _ & _ & En & Hk & HoP). split; [exact HoP|]. split; [exact N|].
    unfold owns. cbn [result im_lo im_hi]. unfold num in En. lia.
  - intros r Hr. rewrite (Hsubs r Hr). cbn [SubIndices.sub_of sb_src]. split; [apply sort_uniq_sorted|]. intro s. apply sort_uniq_in.
  - intros r Hr. rewrite (Hsubs r Hr). split; [apply sort_uniq_sorted|]. intro s. rewrite sub_dest_in by exact Hr. reflexivity.
Qed.

Lemma result_size q : q < P -> size_local (result q) = length (sb_owned (sub_of q)).
Proof. intro Hq. unfold size_local, result. cbn [im_lo im_hi]. unfold local_size. rewrite (Hsubs q Hq). lia. Qed.

Lemma result_l2g q j l : q < P -> nth_error (sb_owned (sub_of q) ++ sb_ghost (sub_of q)) j = Some l ->
  local_to_global (result q) j = Some (num q l).
Proof.
  intros Hq Hj. unfold local_to_global. rewrite (result_size q Hq). destruct (Nat.ltb_spec j (length (sb_owned (sub_of q)))) as [L|L].
  - rewrite nth_error_app1 in Hj by exact L. cbn [result im_lo]. f_equal. pose proof (nth_error_In _ _ Hj) as Hl.
    apply owned_in in Hl as (Hi & E); [|exact Hq]. unfold num. rewrite E.
    destruct (newidx_spec q l Hq (nth_error_In _ _ Hj)) as (k & _ & Hk & ->).
    rewrite (NoDup_nth_error_inj (sb_owned (sub_of q)) k j l); auto; [lia|]. apply SS_lt_NoDup. now apply owned_sorted.
  - rewrite nth_error_app2 in Hj by exact L. cbn [result im_ghosts].
    generalize dependent (j - length (sb_owned (sub_of q))). intros k Hk. cbn [SubIndices.sub_of sb_ghost] in Hk.
    rewrite nth_error_map_some in Hk |- *. destruct (nth_error (ghosts_of q) k) as [[l' o]|] eqn:E; [|discriminate].
    cbn in Hk. injection Hk as ->. apply nth_error_In in E. apply ghosts_of_in in E as (Hl & -> & _); [|exact Hq]. reflexivity.
Qed.
End Sub.

Lemma isort_fst_sorted (l : list (nat * nat)) : NoDup (map fst l) -> StronglySorted lt (map fst (isort pair_leb l)).
Proof.
  intro Hn. assert (Hp : NoDup (map fst (isort pair_leb l))) by (eapply Permutation_NoDup; [apply Permutation_map, isort_perm|exact Hn]).
  pose proof (psort_sorted l) as Hs. revert Hp. induction Hs as [|x t Hs IH Hx]; intro Hp; [constructor|]. cbn [map] in *. inversion_clear Hp as [|? ? H1 H2].
  constructor; [auto|]. rewrite Forall_forall in *. intros y Hy. apply in_map_iff in Hy as (z & <- & Hz). specialize (Hx z Hz). apply pair_leb_iff in Hx.
  assert (fst x <> fst z) by (intro E; apply H1; rewrite E; apply in_map_iff; eauto). lia.
Qed.

Lemma sub_map_ok P maps indices preserve allow :
  maps_ok P maps ->
  (forall r, r < P -> StronglySorted lt (indices r) /\
     forall i, In i (indices r) -> i < size_local (maps r) + num_ghosts (maps r)) ->
  (allow = true \/ forall r q g, r < P -> q < P -> owns (maps r) g -> marks maps indices q g -> marks maps indices r g) ->
  exists subs s2p,
    maps_ok P subs /\
    (forall r, r < P -> create_sub_index_map P maps indices preserve allow r = Some (subs r, s2p r)) /\
    (forall r, r < P ->
       Permutation (s2p r) (indices r) /\
       length (s2p r) = size_local (subs r) + num_ghosts (subs r) /\
       StronglySorted lt (firstn (size_local (subs r)) (s2p r)) /\
       (preserve = true -> StronglySorted lt (skipn (size_local (subs r)) (s2p r)))) /\
    (forall r j i g, r < P -> nth_error (s2p r) j = Some i -> local_to_global (maps r) i = Some g ->
       exists o, new_owner P maps indices g o /\ (forall o', new_owner P maps indices g o' -> o' = o) /\
         (j < size_local (subs r) <-> o = r) /\
         (forall k, j = size_local (subs r) + k -> nth_error (im_owners (subs r)) k = Some o)) /\
    (forall r r' j j' i i' g g' n n', r < P -> r' < P ->
       nth_error (s2p r) j = Some i -> local_to_global (maps r) i = Some g -> local_to_global (subs r) j = Some n ->
       nth_error (s2p r') j' = Some i' -> local_to_global (maps r') i' = Some g' -> local_to_global (subs r') j' = Some n' ->
       (n = n' <-> g = g')).
Proof.
  intros Hok Hind Hallow. set (sub_of := sub_of maps indices preserve).
  set (subs := fun q => nth q (map sub_of (seq 0 P)) (mkSub [] [] [] [] [])).
  assert (Hsubs : forall q, q < P -> subs q = sub_of q).
  { intros q Hq. unfold subs. apply nth_error_nth. rewrite nth_error_map_some, nth_error_seq by exact Hq. reflexivity. }
  set (res := result P maps indices preserve subs).
  exists res, (fun q => sb_owned (sub_of q) ++ sb_ghost (sub_of q)).
  assert (Hs : forall r, r < P -> size_local (res r) = length (sb_owned (sub_of r))) by (intros; now apply result_size).
  split; [now apply (result_ok P maps indices preserve Hok Hind)|]. split.
  { intros r Hr. unfold create_sub_index_map. rewrite omap_map with (g := sub_of).
    - cbn [obind]. apply (create_ok_q P maps indices preserve Hok Hind subs Hsubs r Hr).
    - intros q Hq. apply in_seq in Hq. apply (compute_submap_indices_ok P maps indices preserve allow Hok Hind Hallow). lia. }
  split.
  { intros r Hr. split; [now apply (s2p_perm P maps indices preserve Hok Hind)|]. rewrite (Hs r Hr). split.
    - rewrite app_length. f_equal. unfold num_ghosts, res, result. cbn [im_ghosts]. unfold sub_of, SubIndices.sub_of. cbn [sb_ghost]. now rewrite !map_length.
    - rewrite firstn_app, firstn_all, Nat.sub_diag. cbn [firstn]. rewrite app_nil_r. split; [now apply (owned_sorted P maps indices preserve Hok Hind)|].
      intros ->. rewrite skipn_app, skipn_all, Nat.sub_diag. cbn [skipn app]. unfold sub_of, SubIndices.sub_of. cbn [sb_ghost].
      unfold ghosts_of. apply isort_fst_sorted. apply NoDup_map_filter. now apply (LO_NoDup P maps indices Hok). }
  assert (Hin : forall r j i, r < P -> nth_error (sb_owned (sub_of r) ++ sb_ghost (sub_of r)) j = Some i -> In i (indices r)).
  { intros r j i Hr Hj. eapply Permutation_in; [now apply (s2p_perm P maps indices preserve Hok Hind)|]. eapply nth_error_In; eauto. }
  assert (Hgl : forall r i g, local_to_global (maps r) i = Some g -> gl maps r i = g) by (intros r i g E; unfold gl; now rewrite E).
  split.
  { intros r j i g Hr Hj Hg. pose proof (Hin r j i Hr Hj) as Hi. exists (nown maps indices r i).
    pose proof (nown_new_owner P maps indices Hok Hind r i Hr Hi) as HN. rewrite (Hgl _ _ _ Hg) in HN. split; [exact HN|]. split.
    - intros o' Ho'. eapply (new_owner_unique P maps indices Hok); eauto.
    - rewrite (Hs r Hr). destruct (le_lt_dec (length (sb_owned (sub_of r))) j) as [L|L].
      + rewrite nth_error_app2 in Hj by exact L. 
        remember (j - length (sb_owned (sub_of r))) as k0 eqn:Ek. unfold sub_of, SubIndices.sub_of in Hj. cbn [sb_ghost] in Hj.
        rewrite nth_error_map_some in Hj. destruct (nth_error (ghosts_of maps indices preserve r) k0) as [[l o]|] eqn:E; [|discriminate].
        cbn in Hj. injection Hj as ->. pose proof (nth_error_In _ _ E) as E'. apply (ghosts_of_in P maps indices preserve Hok Hind) in E' as (_ & Eo & N); [|exact Hr].
        split; [split; [lia|congruence]|]. intros k Hk. replace k with k0 by lia. unfold res, result. cbn [im_owners]. rewrite nth_error_map_some, E. cbn. now rewrite Eo.
      + rewrite nth_error_app1 in Hj by exact L. apply nth_error_In in Hj. apply (owned_in P maps indices preserve Hok Hind) in Hj as (_ & E); [|exact Hr].
        split; [split; [auto|lia]|]. intros k Hk. lia. }
  intros r r' j j' i i' g g' n n' Hr Hr' Hj Hg Hn Hj' Hg' Hn'.
  unfold res in Hn, Hn'. rewrite (result_l2g P maps indices preserve Hok Hind subs Hsubs r j i Hr Hj) in Hn. injection Hn as <-.
  rewrite (result_l2g P maps indices preserve Hok Hind subs Hsubs r' j' i' Hr' Hj') in Hn'. injection Hn' as <-.
  rewrite <- (Hgl _ _ _ Hg), <- (Hgl _ _ _ Hg'). apply (num_iff P maps indices preserve Hok Hind subs Hsubs); eauto.
Qed.

(** Without permission to change owners the call fails if an owner does not mark an index another rank marks. *)
Lemma sub_map_refused P maps indices preserve r q g r' :
  maps_ok P maps ->
  (forall r, r < P -> StronglySorted lt (indices r) /\
     forall i, In i (indices r) -> i < size_local (maps r) + num_ghosts (maps r)) ->
  r < P -> q < P -> owns (maps r) g -> marks maps indices q g -> ~ marks maps indices r g ->
  create_sub_index_map P maps indices preserve false r' = None.
Proof.
  intros Hok Hind Hr Hq Hw Hm Hn. unfold create_sub_index_map.
  assert (E : compute_submap_indices P maps indices preserve false r = None).
  { unfold compute_submap_indices. rewrite (sub_send_ok P maps indices Hok Hind r Hr). unfold sendval. cbn [obind].
    rewrite (sub_possible_eq P maps indices false Hok Hind r Hr).
    replace (existsb (fun e => negb (snd e)) (ents maps indices r)) with true; [reflexivity|]. symmetry. apply existsb_exists.
    exists (q, g, keeps maps indices r g). split.
    - apply (ents_in P maps indices Hok r); [exact Hr|]. split; [exact Hq|]. split; [|reflexivity].
      apply (RX_in P maps indices Hok); auto. split; [|auto]. intros ->. contradiction.
    - cbn. apply negb_true_iff. destruct (keeps maps indices r g) eqn:K; [|reflexivity]. exfalso. apply Hn. now apply (keeps_iff P maps indices Hok). }
  destruct (omap (compute_submap_indices P maps indices preserve false) (seq 0 P)) as [all|] eqn:Eo; [|reflexivity].
  destruct (omap_nth _ _ _ Eo r r) as (b & _ & Hb); [now apply nth_error_seq|]. congruence.
Qed.
