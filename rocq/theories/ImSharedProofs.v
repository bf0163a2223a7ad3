From Verif Require Import Base BaseProofs BucketProofs Algo AlgoProofs Nbx World WorldProofs IndexMap IndexMapSpec IndexMapProofs.

Lemma in_combine_nth {A B} (u : list A) (v : list B) a b :
  In (a, b) (combine u v) <-> exists k, nth_error u k = Some a /\ nth_error v k = Some b.
Proof.
  revert v; induction u as [|x u IH]; intros [|y v]; cbn; split; try tauto.
  - intros ([|k] & H & _); discriminate H.
  - intros ([|k] & H & _); discriminate H.
  - intros ([|k] & _ & H); discriminate H.
  - intros [E|H]; [injection E as -> ->; exists 0; auto|]. apply IH in H as (k & H). exists (S k). exact H.
  - intros ([|k] & H1 & H2); cbn in *; [left; congruence|]. right. apply IH. eauto.
Qed.

Lemma concat_single {A B} (f : A -> list B) l x : NoDup l -> In x l ->
  (forall y, In y l -> y <> x -> f y = []) -> concat (map f l) = f x.
Proof.
  induction l as [|y t IH]; intros Hn Hi H; [destruct Hi|]. inversion Hn as [|? ? Hy Ht]; subst. cbn.
  destruct Hi as [->|Hi].
  - rewrite <- (app_nil_r (f x)) at 2. f_equal. clear IH Hn. induction t as [|z t IH]; [reflexivity|]. cbn.
    inversion Ht; subst. rewrite (H z) by (cbn; auto; intros ->; apply Hy; now left). cbn. apply IH; auto.
    + intro; apply Hy; now right.
    + intros w [->|Hw] Hne; [contradiction|]. apply H; auto. cbn. auto.
  - rewrite H by (try (now left); intros ->; contradiction). cbn. apply IH; auto. intros; apply H; auto. now right.
Qed.

Lemma concat_if_filter {A} (p : A -> bool) (l : list A) :
  concat (map (fun x => if p x then [x] else []) l) = filter p l.
Proof. induction l as [|x t IH]; cbn; [reflexivity|]. destruct (p x); cbn; now rewrite IH. Qed.

Lemma NoDup_isort l : NoDup l -> NoDup (isort Nat.leb l).
Proof. apply Permutation_NoDup, isort_perm. Qed.

Lemma NoDup_vals (ks vs : list nat) k : NoDup vs -> length ks = length vs -> NoDup (vals k (combine ks vs)).
Proof.
  unfold vals. revert vs; induction ks as [|a ks IH]; intros [|v vs] Hn Hl; try discriminate; [constructor|].
  inversion Hn as [|? ? Hv Hn']; subst. cbn [combine filter fst]. injection Hl as Hl.
  destruct (a =? k); cbn; [|apply IH; auto]. constructor; [|apply IH; auto].
  intro H. apply in_map_iff in H as ([x y] & E & H). cbn in E. subst y. apply filter_In in H as (H & _).
  apply in_combine_r in H. contradiction.
Qed.

Lemma isort_filter_eq l n (p : nat -> bool) : NoDup l -> (forall x, In x l <-> x < n /\ p x = true) ->
  isort Nat.leb l = filter p (seq 0 n).
Proof.
  intros Hn Hin. apply nsort_unique.
  - eapply SS_impl_in; [|apply SS_filter, SS_lt_seq]. cbn; intros; lia.
  - apply NoDup_Permutation; [exact Hn|apply NoDup_filter, seq_NoDup|].
    intro x. rewrite filter_In, in_seq, Hin. intuition lia.
Qed.

Lemma SS_nth {A} (R : A -> A -> Prop) l : StronglySorted R l -> forall i j a b, i < j ->
  nth_error l i = Some a -> nth_error l j = Some b -> R a b.
Proof.
  induction 1 as [|x t Ht IH Hx]; intros i j a b Hij Hi Hj; [destruct i; discriminate|].
  destruct j as [|j]; [lia|]. cbn in Hj. destruct i as [|i]; cbn in Hi.
  - injection Hi as <-. rewrite Forall_forall in Hx. apply Hx. eapply nth_error_In; eauto.
  - eapply IH; [|exact Hi|exact Hj]. lia.
Qed.

Section Shared.
Variables (P : nat) (maps : nat -> imap).
Hypothesis Hok : maps_ok P maps.

(** Ghosts of [q] owned by [d], sorted. *)
Definition gof (q d : nat) : list nat :=
  isort Nat.leb (vals d (combine (im_owners (maps q)) (im_ghosts (maps q)))).

Lemma gof_NoDup q d : q < P -> NoDup (gof q d).
Proof.
  intro Hq. apply NoDup_isort, NoDup_vals; [apply (mo_once _ _ Hok q Hq)|apply (mo_len _ _ Hok q Hq)].
Qed.

Lemma ghost_owner q g : q < P -> In g (im_ghosts (maps q)) ->
  exists o k, o < P /\ o <> q /\ owns (maps o) g /\ In o (im_owners (maps q)) /\
    nth_error (im_ghosts (maps q)) k = Some g /\ nth_error (im_owners (maps q)) k = Some o.
Proof.
  intros Hq Hg. apply In_nth_error in Hg as (k & Hk).
  destruct (nth_error_lt (im_owners (maps q)) k) as (o & Ho).
  { rewrite (mo_len _ _ Hok) by exact Hq. eapply nth_error_bound; eauto. }
  destruct (mo_owner _ _ Hok q k g o Hq Hk Ho) as (A & B & C). exists o, k. repeat split; auto; try apply C.
  eapply nth_error_In; eauto.
Qed.

Lemma gof_in q d g : q < P -> d < P -> In g (gof q d) <-> In g (im_ghosts (maps q)) /\ owns (maps d) g.
Proof.
  intros Hq Hd. unfold gof. rewrite isort_in, vals_in, in_combine_nth. split.
  - intros (k & Ho & Hg). split; [eapply nth_error_In; eauto|]. apply (mo_owner _ _ Hok q k g d Hq Hg Ho).
  - intros (Hg & Hw). destruct (ghost_owner q g Hq Hg) as (o & k & A & _ & C & _ & E & F).
    exists k. split; [|exact E]. rewrite F. f_equal. eapply owner_unique; eauto.
Qed.

Lemma owner_lt q o : q < P -> In o (im_owners (maps q)) -> o < P /\ o <> q.
Proof.
  intros Hq Ho. apply In_nth_error in Ho as (k & Hk).
  destruct (nth_error_lt (im_ghosts (maps q)) k) as (g & Hg).
  { rewrite <- (mo_len _ _ Hok) by exact Hq. eapply nth_error_bound; eauto. }
  destruct (mo_owner _ _ Hok q k g o Hq Hg Hk) as (A & B & _). auto.
Qed.

Lemma owner_has q o : q < P -> In o (im_owners (maps q)) ->
  exists g, In g (im_ghosts (maps q)) /\ owns (maps o) g.
Proof.
  intros Hq Ho. apply In_nth_error in Ho as (k & Hk).
  destruct (nth_error_lt (im_ghosts (maps q)) k) as (g & Hg).
  { rewrite <- (mo_len _ _ Hok) by exact Hq. eapply nth_error_bound; eauto. }
  destruct (mo_owner _ _ Hok q k g o Hq Hg Hk) as (A & B & C). exists g. split; [eapply nth_error_In; eauto|exact C].
Qed.

Lemma src_in q s : q < P -> In s (im_src (maps q)) <-> In s (im_owners (maps q)).
Proof. intro Hq. apply (mo_src _ _ Hok q Hq). Qed.
Lemma dest_in q s : q < P -> In s (im_dest (maps q)) <-> s < P /\ In q (im_owners (maps s)).
Proof. intro Hq. apply (mo_dest _ _ Hok q Hq). Qed.
Lemma dest_iff q s : q < P ->
  In s (im_dest (maps q)) <-> s < P /\ exists g, In g (im_ghosts (maps s)) /\ owns (maps q) g.
Proof.
  intro Hq. rewrite dest_in by exact Hq. split; intros (Hs & H); (split; [exact Hs|]).
  - now apply owner_has.
  - destruct H as (g & Hg & Hw). destruct (ghost_owner s g Hs Hg) as (o & k & A & _ & C & D & _).
    replace q with o; [exact D|]. eapply owner_unique; eauto.
Qed.

Lemma src_dest_graph : graph_ok P (fun q => im_dest (maps q)) (fun q => im_src (maps q)).
Proof.
  intros r Hr. split; [apply SS_lt_NoDup, (mo_src _ _ Hok r Hr)|].
  split; [apply SS_lt_NoDup, (mo_dest _ _ Hok r Hr)|]. split; intro d.
  - rewrite src_in by exact Hr. split.
    + intro H. destruct (owner_lt r d Hr H) as (A & _). split; [exact A|]. apply dest_in; auto.
    + intros (Hd & H). now apply dest_in in H.
  - rewrite dest_in by exact Hr. split; intros (Hd & H); (split; [exact Hd|]); [apply src_in; auto|].
    now apply src_in in H.
Qed.

Lemma ghosts_by_owner_spec q : q < P ->
  ghosts_by_owner (maps q) =
  Some (concat (map (gof q) (im_src (maps q))),
        (map (fun d => length (gof q d)) (im_src (maps q)),
         psums (map (fun d => length (gof q d)) (im_src (maps q))))).
Proof.
  intro Hq. unfold ghosts_by_owner.
  rewrite (psort_groups (im_src (maps q))).
  - cbn zeta. rewrite runs_groups.
    + cbn [obind]. do 3 f_equal. rewrite concat_map, map_map. f_equal. apply map_ext. intro k.
      unfold pack. rewrite map_map. cbn. now rewrite map_id.
    + apply SS_lt_NoDup, (mo_src _ _ Hok q Hq).
    + intros k Hk. apply src_in in Hk; [|exact Hq]. intro E.
      apply In_nth_error in Hk as (i & Hi).
      destruct (nth_error_lt (im_ghosts (maps q)) i) as (g & Hg).
      { rewrite <- (mo_len _ _ Hok) by exact Hq. eapply nth_error_bound; eauto. }
      assert (H : In g (isort Nat.leb (vals k (combine (im_owners (maps q)) (im_ghosts (maps q)))))).
      { apply isort_in, vals_in, in_combine_nth. eauto. }
      rewrite E in H. destruct H.
    + reflexivity.
  - apply (mo_src _ _ Hok q Hq).
  - intros [o g] Hp. apply src_in; [exact Hq|]. apply in_combine_l in Hp. exact Hp.
Qed.

Lemma ghosts_exchange r : r < P ->
  exchange P (fun q => im_dest (maps q)) (fun q => im_src (maps q)) (fun q => ghosts_by_owner (maps q)) r
  = Some (concat (map (fun s => gof s r) (im_dest (maps r))), map (fun s => length (gof s r)) (im_dest (maps r))).
Proof.
  intro Hr. apply (exchange_spec P _ _ _ gof r src_dest_graph Hr). intros s Hs.
  apply ghosts_by_owner_spec. apply dest_in in Hs; [apply Hs|exact Hr].
Qed.

Lemma shared_indices_ok r : r < P -> exists l,
  shared_indices P maps r = Some l /\ StronglySorted lt l /\
  forall i, In i l <-> i < size_local (maps r) /\ exists q, q < P /\ In (im_lo (maps r) + i) (im_ghosts (maps q)).
Proof.
  intro Hr. unfold shared_indices. rewrite ghosts_exchange by exact Hr. cbn [obind].
  rewrite omap_map with (g := fun idx => idx - im_lo (maps r)).
  - cbn [obind]. eexists. split; [reflexivity|]. split; [apply sort_uniq_sorted|]. intro i.
    rewrite sort_uniq_in, in_map_iff. split.
    + intros (g & <- & Hg). apply in_concat in Hg as (l & Hl & Hg). apply in_map_iff in Hl as (s & <- & Hs).
      apply dest_in in Hs as (HsP & _); [|exact Hr]. apply gof_in in Hg as (Hg & Hw); auto. unfold owns in Hw.
      unfold size_local. split; [lia|]. exists s. split; [exact HsP|].
      now replace (im_lo (maps r) + (g - im_lo (maps r))) with g by lia.
    + intros (Hi & q & Hq & Hg). exists (im_lo (maps r) + i). split; [lia|]. apply in_concat.
      assert (Hw : owns (maps r) (im_lo (maps r) + i)) by (unfold owns; unfold size_local in Hi; lia).
      exists (gof q r). split; [|apply gof_in; auto]. apply in_map_iff. exists q. split; [reflexivity|].
      apply dest_iff; eauto.
  - intros g Hg. apply in_concat in Hg as (l & Hl & Hg). apply in_map_iff in Hl as (s & <- & Hs).
    apply dest_in in Hs as (HsP & _); [|exact Hr]. apply gof_in in Hg as (Hg & Hw); auto. unfold owns in Hw.
    destruct (Nat.leb_spec (im_lo (maps r)) g), (Nat.ltb_spec g (im_hi (maps r))); cbn; try lia. reflexivity.
Qed.

(** ** weights *)
Lemma weights_src_ok r : r < P ->
  weights_src (maps r) = Some (map (fun s => length (filter (Nat.eqb s) (im_owners (maps r)))) (im_src (maps r))).
Proof.
  intro Hr. unfold weights_src. destruct (mo_src _ _ Hok r Hr) as (Hs & Hin).
  set (src := im_src (maps r)) in *.
  assert (G : forall l, (forall o, In o l -> In o src) ->
    exists w, ofold (fun w o => pos <- find_sorted src o;; incr w pos) l (repeat 0 (length src)) = Some w /\
       length w = length src /\
       forall i s, nth_error src i = Some s -> nth_error w i = Some (length (filter (Nat.eqb s) l))).
  { intros l Hl.
    destruct (ofold_prefix_ind (fun w o => pos <- find_sorted src o;; incr w pos)
      (fun p w => length w = length src /\ forall i s, nth_error src i = Some s -> nth_error w i = Some (length (filter (Nat.eqb s) p)))
      l (repeat 0 (length src))) as (w & E & H).
    - split; [apply repeat_length|]. intros i s Hi. cbn. apply nth_error_repeat. eapply nth_error_bound; eauto.
    - intros p o q w -> (Hlen & Hw). rewrite find_sorted_spec by exact Hs.
      destruct (index_in_in o src) as (j & Hj); [apply Hl, in_app_iff; right; now left|].
      rewrite Hj. cbn [obind]. apply index_in_some in Hj. unfold incr.
      destruct (modify_some w j S) as (w' & Hw'); [rewrite Hlen; eapply nth_error_bound; eauto|].
      exists w'. split; [exact Hw'|]. split; [rewrite (modify_length _ _ _ _ Hw'); exact Hlen|].
      intros i s Hi. rewrite (modify_nth _ _ _ i _ Hw'), filter_app, app_length. cbn [filter].
      rewrite (Hw i s Hi). destruct (Nat.eqb_spec j i) as [E|N].
      + subst j. assert (s = o) by congruence. subst s. rewrite Nat.eqb_refl. cbn. f_equal. lia.
      + destruct (Nat.eqb_spec s o) as [E|_].
        * subst s. exfalso. apply N. eapply NoDup_nth_error_inj; eauto. now apply SS_lt_NoDup.
        * cbn. f_equal. lia.
    - exists w. auto. }
  destruct (G (im_owners (maps r))) as (w & E & Hl & Hw); [intros; now apply Hin|].
  rewrite E. f_equal. apply nth_error_ext. intro i. rewrite nth_error_map_some.
  destruct (nth_error src i) as [s|] eqn:Ei; cbn; [now apply Hw|].
  apply nth_error_None in Ei. apply nth_error_None. lia.
Qed.

Lemma weights_dest_ok r : r < P ->
  weights_dest P maps r = Some (map (fun s => length (filter (Nat.eqb r) (im_owners (maps s)))) (im_dest (maps r))).
Proof.
  intro Hr. unfold weights_dest.
  apply (neigh_alltoall_spec P _ _ _ (fun s d => length (filter (Nat.eqb d) (im_owners (maps s)))) r src_dest_graph Hr).
  intros s Hs. apply dest_in in Hs as (HsP & _); [|exact Hr]. now apply weights_src_ok.
Qed.

(** ** index_to_dest_ranks *)
Variable nbx : (nat -> list nat) -> nat -> list nat.
Hypothesis Hnbx : nbx_oracle P nbx.

Lemma i2d_src_eq q : q < P -> i2d_src maps q = im_src (maps q).
Proof.
  intro Hq. apply SS_lt_eq; [apply sort_uniq_sorted|apply (mo_src _ _ Hok q Hq)|].
  intro x. unfold i2d_src. rewrite sort_uniq_in. symmetry. now apply src_in.
Qed.
Lemma i2d_dest_eq q : q < P -> i2d_dest nbx maps q = im_dest (maps q).
Proof.
  intro Hq. unfold i2d_dest. rewrite (oracle_sorted P) by (auto; intros; apply sort_uniq_NoDup).
  apply SS_lt_eq; [apply SS_filter, SS_lt_seq|apply (mo_dest _ _ Hok q Hq)|].
  intro x. rewrite filter_In, in_seq, mem_iff, dest_in by exact Hq. unfold i2d_src. rewrite sort_uniq_in.
  intuition lia.
Qed.

Lemma exchange_ext {A} srcs dests srcs' dests' (send send' : nat -> option (sbuf A)) r : r < P ->
  graph_ok P srcs dests ->
  (forall q, q < P -> srcs' q = srcs q /\ dests' q = dests q /\ send' q = send q) ->
  exchange P srcs' dests' send' r = exchange P srcs dests send r.
Proof.
  intros Hr HG H.
  assert (N : forall B (f g : nat -> option (list B)), (forall q, q < P -> f q = g q) ->
     neigh_alltoall P srcs' dests' f r = neigh_alltoall P srcs dests g r).
  { intros B f g Hfg. unfold neigh_alltoall. destruct (H r Hr) as (-> & -> & _).
    replace (forallb (fun d => (d <? P) && mem r (srcs' d)) (dests r)) with (forallb (fun d => (d <? P) && mem r (srcs d)) (dests r)).
    - destruct (forallb _ _); [|reflexivity]. apply omap_ext. intros s _. destruct (Nat.ltb_spec s P) as [Hs|]; [|reflexivity].
      rewrite Hfg by exact Hs. destruct (g s); [|reflexivity]. cbn [obind]. destruct (H s Hs) as (_ & -> & _). reflexivity.
    - induction (dests r) as [|d t IH]; [reflexivity|]. cbn [forallb]. f_equal; [|exact IH].
      destruct (Nat.ltb_spec d P) as [Hd|]; [|reflexivity]. destruct (H d Hd) as (-> & _). reflexivity. }
  unfold exchange. f_equal; [|].
  - apply N. intros q Hq. destruct (H q Hq) as (_ & _ & ->). reflexivity.
  - assert (E : forall rsz rsz' : nat -> option (list nat), rsz r = rsz' r ->
        neigh_alltoallv P srcs' dests' send' rsz r = neigh_alltoallv P srcs dests send rsz' r).
    { intros rsz rsz' E. unfold neigh_alltoallv. rewrite E. f_equal. apply N. intros q Hq.
      destruct (H q Hq) as (_ & -> & ->). reflexivity. }
    match goal with |- context [neigh_alltoallv P srcs' dests' send' ?f r] =>
      match goal with |- context [neigh_alltoallv P srcs dests send ?g r] => rewrite (E f g) end end; [reflexivity|].
    cbn beta. apply N. intros q Hq. destruct (H q Hq) as (_ & _ & ->). reflexivity.
Qed.

Definition D (r j : nat) : nat := nth j (im_dest (maps r)) 0.
(** Positions in the destination list of the ranks that ghost owned index [i]. *)
Definition pos (r i : nat) : list nat :=
  filter (fun j => mem (im_lo (maps r) + i) (im_ghosts (maps (D r j)))) (seq 0 (length (im_dest (maps r)))).

Lemma D_nth r j : j < length (im_dest (maps r)) -> nth_error (im_dest (maps r)) j = Some (D r j).
Proof. intro H. now apply nth_error_nth'. Qed.
Lemma D_P r j : r < P -> j < length (im_dest (maps r)) -> D r j < P.
Proof. intros Hr H. apply D_nth, nth_error_In, dest_in in H; [apply H|exact Hr]. Qed.
Lemma pos_lt r i j : In j (pos r i) -> j < length (im_dest (maps r)).
Proof. intro H. apply filter_In in H as (H & _). apply in_seq in H. lia. Qed.

Lemma i2d_owned_ok r : r < P ->
  i2d_owned P nbx maps r = Some (concat (map (fun i => pack i (pos r i)) (seq 0 (size_local (maps r))))).
Proof.
  intro Hr. unfold i2d_owned.
  rewrite (exchange_ext (fun q => im_dest (maps q)) (fun q => im_src (maps q)) _ _ (fun q => ghosts_by_owner (maps q)) _ r Hr src_dest_graph)
    by (intros; split; [now apply i2d_dest_eq|split; [now apply i2d_src_eq|reflexivity]]).
  rewrite ghosts_exchange by exact Hr. cbn [obind]. rewrite map_length.
  rewrite omap_map with (g := fun j => map (fun idx => (idx - im_lo (maps r), j)) (gof (D r j) r)).
  2:{ intros j Hj. apply in_seq in Hj.
      replace (map (fun s => length (gof s r)) (im_dest (maps r)))
        with (map (@length nat) (map (fun s => gof s r) (im_dest (maps r)))) by now rewrite map_map.
      rewrite (slice_at_concat _ j (gof (D r j) r)); [reflexivity|].
      rewrite nth_error_map_some, D_nth by lia. reflexivity. }
  cbn [obind]. f_equal. rewrite (psort_groups (seq 0 (size_local (maps r)))).
  - f_equal. apply map_ext_in. intros i Hi. apply in_seq in Hi. f_equal. rewrite vals_concat, map_map.
    transitivity (isort Nat.leb (pos r i)).
    + f_equal. unfold pos. rewrite <- concat_if_filter. f_equal. apply map_ext_in. intros j Hj. apply in_seq in Hj.
      assert (HD : D r j < P) by (apply D_P; lia).
      assert (E : forall l, NoDup l -> (forall g, In g l -> im_lo (maps r) <= g) ->
         vals i (map (fun idx => (idx - im_lo (maps r), j)) l) = if mem (im_lo (maps r) + i) l then [j] else []).
      { induction l as [|g t IH]; intros Hn Hge; [reflexivity|]. inversion Hn as [|? ? Hg Hn']; subst.
        cbn [map mem existsb]. change ((g - im_lo (maps r), j) :: ?x) with ([(g - im_lo (maps r), j)] ++ x).
        rewrite vals_app, vals_one. cbn [fst snd]. rewrite IH by (auto; intros; apply Hge; now right).
        specialize (Hge g (or_introl eq_refl)).
        destruct (Nat.eqb_spec (g - im_lo (maps r)) i), (Nat.eqb_spec (im_lo (maps r) + i) g); try lia; [|reflexivity].
        replace (mem (im_lo (maps r) + i) t) with false; [reflexivity|]. symmetry. apply not_true_iff_false.
        rewrite mem_iff. congruence. }
      rewrite E.
      * replace (mem (im_lo (maps r) + i) (gof (D r j) r)) with (mem (im_lo (maps r) + i) (im_ghosts (maps (D r j)))); [reflexivity|].
        apply eq_true_iff_eq. rewrite !mem_iff, gof_in by auto. unfold owns. unfold size_local in Hi.
        intuition lia.
      * now apply gof_NoDup.
      * intros g Hg. apply gof_in in Hg as (_ & Hg); auto. unfold owns in Hg. lia.
    + apply nsort_unique; [|apply Permutation_refl]. eapply SS_impl_in; [|apply SS_filter, SS_lt_seq]. cbn; intros; lia.
  - apply SS_lt_seq.
  - intros p Hp. apply in_concat in Hp as (l & Hl & Hp). apply in_map_iff in Hl as (j & <- & Hj).
    apply in_seq in Hj. apply in_map_iff in Hp as (g & <- & Hg).
    apply gof_in in Hg as (_ & Hg); [|apply D_P; lia|exact Hr]. apply in_seq. cbn. unfold owns, size_local in *. lia.
Qed.

Lemma map_snd_groups {A} (ks : list A) (b : A -> list nat) (f : A -> nat) :
  map snd (concat (map (fun k => pack (f k) (b k)) ks)) = concat (map b ks).
Proof.
  rewrite concat_map, map_map. f_equal. apply map_ext. intro k. unfold pack. rewrite map_map. cbn. apply map_id.
Qed.

(** What owner [r] tells rank [d]. *)
Definition BP (r d : nat) : list (nat * nat) :=
  concat (map (fun n => if mem (im_lo (maps r) + n) (im_ghosts (maps d))
     then map (fun q => (n + im_lo (maps r), q)) (filter (fun q => negb (d =? q)) (map (D r) (pos r n)))
          ++ [(n + im_lo (maps r), r)]
     else []) (seq 0 (size_local (maps r)))).
Definition flat (l : list (nat * nat)) : list nat := concat (map (fun p => [fst p; snd p]) l).

Lemma pairs_of_flat l : pairs_of (flat l) = Some l.
Proof. induction l as [|[a b] t IH]; [reflexivity|]. cbn. unfold flat in IH. now rewrite IH. Qed.
Lemma flat_app a b : flat (a ++ b) = flat a ++ flat b.
Proof. unfold flat. now rewrite map_app, concat_app. Qed.
Lemma flat_concat L : flat (concat L) = concat (map flat L).
Proof. induction L as [|x t IH]; [reflexivity|]. cbn [concat map]. now rewrite flat_app, IH. Qed.

Lemma i2d_back_ok r : r < P ->
  i2d_back P nbx maps r = Some (concat (map (fun d => flat (BP r d)) (im_dest (maps r))),
     (map (fun d => length (flat (BP r d))) (im_dest (maps r)),
      psums (map (fun d => length (flat (BP r d))) (im_dest (maps r))))).
Proof.
  intro Hr. unfold i2d_back. rewrite i2d_owned_ok by exact Hr. cbn [obind].
  rewrite group_offsets_groups, map_snd_groups, psums_from_length, map_length, seq_length.
  replace (S (size_local (maps r)) - 1) with (size_local (maps r)) by lia.
  set (n := size_local (maps r)) in *. set (lo := im_lo (maps r)) in *.
  set (kv1 := fun i r0 => concat (map (fun q => if r0 =? q then [] else [(r0, i + lo); (r0, D r q)]) (pos r i))
                          ++ [(r0, i + lo); (r0, r)]).
  rewrite omap_map with (g := fun i => concat (map (kv1 i) (pos r i))).
  2:{ intros i Hi. apply in_seq in Hi. change (psums_from 0) with psums.
      rewrite <- (map_map (pos r) (@length nat)).
      rewrite (slice_at_concat _ i (pos r i)) by (rewrite nth_error_map_some, nth_error_seq by lia; reflexivity).
      cbn [obind]. rewrite omap_map with (g := kv1 i); [reflexivity|]. intros r0 _.
      rewrite omap_map with (g := fun q => (q, D r q)).
      - cbn [obind]. rewrite map_map. reflexivity.
      - intros q Hq. rewrite i2d_dest_eq by exact Hr. rewrite D_nth by (eapply pos_lt; eauto). reflexivity. }
  cbn [obind]. rewrite i2d_dest_eq by exact Hr. rewrite push_all_spec.
  2:{ intros kv Hkv. apply in_concat in Hkv as (l & Hl & Hkv). apply in_map_iff in Hl as (i & <- & Hi).
      apply in_concat in Hkv as (l & Hl & Hkv). apply in_map_iff in Hl as (r0 & <- & Hr0).
      assert (E : fst kv = r0).
      { unfold kv1 in Hkv. apply in_app_iff in Hkv as [Hkv|[<-|[<-|[]]]]; auto.
        apply in_concat in Hkv as (l & Hl & Hkv). apply in_map_iff in Hl as (q & <- & _).
        destruct (r0 =? q); [destruct Hkv|]. destruct Hkv as [<-|[<-|[]]]; auto. }
      rewrite E. eapply pos_lt; eauto. }
  cbn [obind].
  assert (E : map (fun k => vals k (concat (map (fun i => concat (map (kv1 i) (pos r i))) (seq 0 n)))) (seq 0 (length (im_dest (maps r))))
            = map (fun d => flat (BP r d)) (im_dest (maps r))).
  { apply nth_error_ext. intro j. rewrite !nth_error_map_some.
    destruct (Nat.lt_ge_cases j (length (im_dest (maps r)))) as [Hj|Hj].
    2:{ replace (nth_error (im_dest (maps r)) j) with (@None nat) by (symmetry; now apply nth_error_None).
        replace (nth_error (seq 0 _) j) with (@None nat); [reflexivity|]. symmetry. apply nth_error_None.
        now rewrite seq_length. }
    rewrite nth_error_seq, D_nth by lia. cbn [option_map]. f_equal. unfold BP.
    rewrite vals_concat, flat_concat, !map_map. f_equal. apply map_ext_in. intros i Hi.
    rewrite vals_concat, map_map. fold lo.
    destruct (mem (lo + i) (im_ghosts (maps (D r j)))) eqn:Em.
    - rewrite (concat_single _ _ j).
      + unfold kv1. rewrite vals_app, flat_app. f_equal.
        * rewrite vals_concat, map_map. cbn [plus].
          assert (Hp : forall q, In q (pos r i) -> q < length (im_dest (maps r))) by (intros; eapply pos_lt; eauto).
          revert Hp. generalize (pos r i). intros l Hp. induction l as [|q t IH]; [reflexivity|].
          cbn [map concat filter]. rewrite IH by (intros; apply Hp; now right).
          assert (Eq : (D r j =? D r q) = (j =? q)).
          { apply eq_true_iff_eq. rewrite !Nat.eqb_eq. split; [|now intros ->]. intro Ed.
            eapply NoDup_nth_error_inj; [apply SS_lt_NoDup, (mo_dest _ _ Hok r Hr)|apply D_nth; lia|].
            rewrite Ed. apply D_nth, Hp. now left. }
          rewrite Eq. destruct (j =? q); cbn [negb]; [reflexivity|]. cbn [map].
          change ((i + lo, D r q) :: ?x) with ([(i + lo, D r q)] ++ x). rewrite flat_app. f_equal.
          unfold vals. cbn. rewrite Nat.eqb_refl. reflexivity.
        * unfold vals. cbn. rewrite Nat.eqb_refl. reflexivity.
      + apply NoDup_filter, seq_NoDup.
      + apply filter_In. split; [apply in_seq; lia|exact Em].
      + intros r0 Hr0 Hne. unfold kv1. rewrite vals_app, vals_concat, map_map.
        assert (Z : forall q, vals (0 + j) (if r0 =? q then [] else [(r0, i + lo); (r0, D r q)]) = []).
        { intro q. destruct (r0 =? q); [reflexivity|]. unfold vals. cbn. destruct (Nat.eqb_spec r0 j); [contradiction|reflexivity]. }
        rewrite (map_ext _ _ Z), concat_map_nil. unfold vals. cbn. destruct (Nat.eqb_spec r0 j); [contradiction|reflexivity].
    - cbn [flat map concat]. rewrite (map_ext_in _ (fun _ => [])); [apply concat_map_nil|].
      intros r0 Hr0. unfold kv1. rewrite vals_app, vals_concat, map_map.
      assert (Hne : r0 <> j). { intros ->. apply filter_In in Hr0 as (_ & Hr0). fold lo in Hr0. congruence. }
      assert (Z : forall q, vals (0 + j) (if r0 =? q then [] else [(r0, i + lo); (r0, D r q)]) = []).
      { intro q. destruct (r0 =? q); [reflexivity|]. unfold vals. cbn. destruct (Nat.eqb_spec r0 j); [contradiction|reflexivity]. }
      rewrite (map_ext _ _ Z), concat_map_nil. unfold vals. cbn. destruct (Nat.eqb_spec r0 j); [contradiction|reflexivity]. }
  rewrite E, !map_map. reflexivity.
Qed.

Lemma BP_key s d p : s < P -> In p (BP s d) -> In (fst p) (im_ghosts (maps d)) /\ owns (maps s) (fst p).
Proof.
  intros Hs Hp. apply in_concat in Hp as (l & Hl & Hp). apply in_map_iff in Hl as (n & <- & Hn).
  apply in_seq in Hn. destruct (mem _ _) eqn:E; [|destruct Hp]. apply mem_iff in E.
  assert (Ef : fst p = im_lo (maps s) + n).
  { apply in_app_iff in Hp as [Hp|[<-|[]]]; [|cbn; lia]. apply in_map_iff in Hp as (q & <- & _). cbn. lia. }
  rewrite Ef. split; [exact E|]. unfold owns. unfold size_local in Hn. lia.
Qed.

Lemma pos_ranks r n q : r < P -> n < size_local (maps r) ->
  In q (map (D r) (pos r n)) <-> q < P /\ In (im_lo (maps r) + n) (im_ghosts (maps q)).
Proof.
  intros Hr Hn. rewrite in_map_iff. split.
  - intros (j & <- & Hj). pose proof (pos_lt _ _ _ Hj). split; [now apply D_P|].
    apply filter_In in Hj as (_ & Hj). now apply mem_iff.
  - intros (Hq & Hg). assert (Hd : In q (im_dest (maps r))).
    { apply dest_iff; [exact Hr|]. split; [exact Hq|]. exists (im_lo (maps r) + n). split; [exact Hg|].
      unfold owns, size_local in *. lia. }
    apply In_nth_error in Hd as (j & Hj). pose proof (nth_error_bound _ _ _ Hj) as Hjl.
    rewrite D_nth in Hj by exact Hjl. injection Hj as Hj. exists j. split; [exact Hj|].
    apply filter_In. split; [apply in_seq; lia|]. rewrite Hj. now apply mem_iff.
Qed.

Lemma NoDup_pos_ranks r n : r < P -> NoDup (map (D r) (pos r n)).
Proof.
  intro Hr. assert (G : forall l, NoDup l -> (forall j, In j l -> j < length (im_dest (maps r))) -> NoDup (map (D r) l)).
  { induction 1 as [|j t Hj Ht IH]; intro H; cbn; constructor.
    - intro Hi. apply in_map_iff in Hi as (k & Ek & Hk). apply Hj. replace j with k; [exact Hk|].
      eapply NoDup_nth_error_inj; [apply SS_lt_NoDup, (mo_dest _ _ Hok r Hr)|apply D_nth, H; now right|].
      rewrite Ek. apply D_nth, H. now left.
    - apply IH. intros; apply H. now right. }
  apply G; [apply NoDup_filter, seq_NoDup|]. intros j Hj. eapply pos_lt; eauto.
Qed.

Lemma sorted_pos_ranks r n : r < P -> n < size_local (maps r) ->
  map (D r) (pos r n) = filter (fun q => mem (im_lo (maps r) + n) (im_ghosts (maps q))) (seq 0 P).
Proof.
  intros Hr Hn. apply SS_lt_eq.
  - assert (G : forall l, StronglySorted lt l -> (forall j, In j l -> j < length (im_dest (maps r))) ->
       StronglySorted lt (map (D r) l)).
    { induction 1 as [|j t Ht IH Hj]; intro H; cbn; constructor.
      - apply IH. intros; apply H; now right.
      - rewrite Forall_forall in *. intros x Hx. apply in_map_iff in Hx as (k & <- & Hk).
        eapply SS_nth; [apply (mo_dest _ _ Hok r Hr)|apply Hj, Hk|apply D_nth, H; now left|].
        apply D_nth, H; now right. }
    apply G; [apply SS_filter, SS_lt_seq|]. intros j Hj. eapply pos_lt; eauto.
  - apply SS_filter, SS_lt_seq.
  - intro q. rewrite pos_ranks by assumption. rewrite filter_In, in_seq, mem_iff. intuition lia.
Qed.

Lemma omap_concat {A B} (f : A -> option B) (g : A -> B) (L : list (list A)) :
  (forall l a, In l L -> In a l -> f a = Some (g a)) -> omap f (concat L) = Some (concat (map (map g) L)).
Proof.
  intro H. rewrite omap_map with (g := g); [now rewrite concat_map|]. intros a Ha.
  apply in_concat in Ha as (l & Hl & Ha). eauto.
Qed.

Lemma psums_from_app a l1 l2 : psums_from a (l1 ++ l2) = psums_from a l1 ++ tl (psums_from (a + lsum l1) l2).
Proof.
  revert a; induction l1 as [|x t IH]; intro a; cbn [app psums_from].
  - rewrite lsum_nil, Nat.add_0_r. destruct l2; reflexivity.
  - rewrite IH, lsum_cons. cbn. do 4 f_equal. lia.
Qed.

Definition see_ghost (r o g : nat) : list nat :=
  filter (fun q => negb (q =? r) && ((q =? o) || mem g (im_ghosts (maps q)))) (seq 0 P).
Definition idx (r x : nat) : nat := match index_in x (im_ghosts (maps r)) with Some i => i | None => 0 end.

Lemma i2d_full r : r < P -> exists rows,
  index_to_dest_ranks P nbx maps r = Some (concat rows, psums (map (@length nat) rows)) /\
  length rows = size_local (maps r) + num_ghosts (maps r) /\
  (forall i, i < size_local (maps r) ->
     nth_error rows i = Some (filter (fun q => mem (im_lo (maps r) + i) (im_ghosts (maps q))) (seq 0 P))) /\
  (forall k g o, nth_error (im_ghosts (maps r)) k = Some g -> nth_error (im_owners (maps r)) k = Some o ->
     nth_error rows (size_local (maps r) + k) = Some (see_ghost r o g)).
Proof.
  intro Hr. unfold index_to_dest_ranks. rewrite i2d_owned_ok by exact Hr. cbn [obind].
  rewrite group_offsets_groups. set (n := size_local (maps r)).
  rewrite (exchange_ext (fun q => im_src (maps q)) (fun q => im_dest (maps q)) _ _ (fun q => i2d_back P nbx maps q) _ r Hr (graph_ok_sym _ _ _ src_dest_graph))
    by (intros; split; [now apply i2d_src_eq|split; [now apply i2d_dest_eq|reflexivity]]).
  rewrite (exchange_spec P _ _ _ (fun s d => flat (BP s d)) r (graph_ok_sym _ _ _ src_dest_graph) Hr).
  2:{ intros s Hs. apply i2d_back_ok. apply src_in in Hs; [|exact Hr]. eapply owner_lt; eauto. }
  cbn [obind]. rewrite <- (map_map (fun s => BP s r) flat), <- flat_concat, pairs_of_flat. cbn [obind].
  set (prs := concat (map (fun s => BP s r) (im_src (maps r)))).
  assert (Hkeys : forall p, In p prs -> In (fst p) (im_ghosts (maps r))).
  { intros p Hp. apply in_concat in Hp as (l & Hl & Hp). apply in_map_iff in Hl as (s & <- & Hs).
    apply BP_key in Hp as (Hp & _); [exact Hp|]. apply src_in in Hs; [|exact Hr]. eapply owner_lt; eauto. }
  rewrite omap_map with (g := fun p => (idx r (fst p), snd p)).
  2:{ intros p Hp. pose proof (lookup_pairs (im_ghosts (maps r)) 0 (fst p) (mo_once _ _ Hok r Hr)) as HL. cbn zeta in HL.
      destruct (index_in_in _ _ (Hkeys p Hp)) as (i & Ei). unfold idx. rewrite Ei in *. cbn [option_map plus] in HL.
      destruct (nth_error _ _) as [[g l]|]; [|discriminate]. destruct (g =? fst p); [|discriminate]. now injection HL as ->. }
  cbn [obind]. set (L2 := map (fun p => (idx r (fst p), snd p)) prs).
  set (ng := length (im_ghosts (maps r))).
  assert (Hidx : forall x, In x (im_ghosts (maps r)) -> nth_error (im_ghosts (maps r)) (idx r x) = Some x).
  { intros x Hx. unfold idx. destruct (index_in_in _ _ Hx) as (i & Ei). rewrite Ei. now apply index_in_some. }
  rewrite (psort_groups (seq 0 ng) L2).
  2: apply SS_lt_seq.
  2:{ intros p Hp. apply in_map_iff in Hp as (p' & <- & Hp). cbn. apply Hkeys, Hidx, nth_error_bound in Hp.
      apply in_seq. fold ng in Hp. lia. }
  rewrite group_offsets_groups, (map_snd_groups (seq 0 ng) (fun k => isort Nat.leb (vals k L2)) (fun k => k)).
  rewrite (omap_concat _ (fun x => D r (snd x))).
  2:{ intros l a Hl Ha. apply in_map_iff in Hl as (i & <- & Hi). apply in_map_iff in Ha as (j & <- & Hj).
      rewrite i2d_dest_eq by exact Hr. cbn [snd]. apply D_nth. eapply pos_lt; eauto. }
  cbn [obind]. rewrite map_map.
  exists (map (fun i => map (D r) (pos r i)) (seq 0 n) ++ map (fun k => isort Nat.leb (vals k L2)) (seq 0 ng)).
  split; [|split; [|split]].
  - f_equal. f_equal.
    + rewrite concat_app. f_equal. f_equal. apply map_ext. intro i. unfold pack. rewrite map_map. reflexivity.
    + unfold psums. rewrite last_psums_from, map_app, psums_from_app, !map_map.
      assert (El : map (fun x => length (map (D r) (pos r x))) (seq 0 n) = map (fun k => length (pos r k)) (seq 0 n))
        by (apply map_ext; intro; apply map_length).
      rewrite El. reflexivity.
  - rewrite app_length, !map_length, !seq_length. reflexivity.
  - intros i Hi. rewrite nth_error_app1 by (rewrite map_length, seq_length; exact Hi).
    rewrite nth_error_map_some, nth_error_seq by exact Hi. cbn [option_map plus]. f_equal. now apply sorted_pos_ranks.
  - intros k g o Hg Ho. pose proof (nth_error_bound _ _ _ Hg) as Hk. fold ng in Hk.
    rewrite nth_error_app2 by (rewrite map_length, seq_length; lia). rewrite map_length, seq_length.
    replace (n + k - n) with k by lia. rewrite nth_error_map_some, nth_error_seq by exact Hk. cbn [option_map plus]. f_equal.
    destruct (mo_owner _ _ Hok r k g o Hr Hg Ho) as (HoP & Hor & How).
    assert (Hos : In o (im_src (maps r))) by (apply src_in; [exact Hr|]; eapply nth_error_In; eauto).
    assert (EV : vals k L2 = vals g prs).
    { unfold L2. revert Hkeys. generalize prs. intros l Hl. induction l as [|p t IH]; [reflexivity|].
      cbn [map]. change ((idx r (fst p), snd p) :: ?x) with ([(idx r (fst p), snd p)] ++ x).
      change (p :: t) with ([p] ++ t). rewrite !vals_app, !vals_one, IH by (intros; apply Hl; now right). f_equal. cbn [fst snd].
      pose proof (Hidx _ (Hl p (or_introl eq_refl))) as Hi.
      destruct (Nat.eqb_spec (idx r (fst p)) k) as [E|N], (Nat.eqb_spec (fst p) g) as [E'|N']; auto; exfalso.
      - apply N'. rewrite E in Hi. congruence.
      - apply N. rewrite E' in *. eapply NoDup_nth_error_inj; [apply (mo_once _ _ Hok r Hr)|exact Hi|exact Hg]. }
    assert (EB : vals g prs = vals g (BP o r)).
    { unfold prs. rewrite vals_concat, map_map. apply (concat_single (fun s => vals g (BP s r))).
      - apply SS_lt_NoDup, (mo_src _ _ Hok r Hr).
      - exact Hos.
      - intros s Hs Hne. apply src_in in Hs; [|exact Hr]. destruct (owner_lt r s Hr Hs) as (HsP & _).
        destruct (vals g (BP s r)) as [|v t] eqn:E; [reflexivity|]. exfalso. apply Hne.
        assert (Hin : In v (vals g (BP s r))) by (rewrite E; now left). apply vals_in in Hin.
        apply BP_key in Hin as (_ & Hin); [|exact HsP]. cbn in Hin. eapply owner_unique; eauto. }
    set (m := g - im_lo (maps o)).
    assert (Hm : m < size_local (maps o)) by (unfold m, owns, size_local in *; lia).
    assert (Hgm : g = im_lo (maps o) + m) by (unfold m, owns in *; lia).
    assert (EM : vals g (BP o r) = filter (fun q => negb (r =? q)) (map (D o) (pos o m)) ++ [o]).
    { unfold BP. rewrite vals_concat, map_map. rewrite (concat_single _ _ m).
      - rewrite <- Hgm. replace (mem g (im_ghosts (maps r))) with true
          by (symmetry; apply mem_iff; eapply nth_error_In; eauto).
        rewrite vals_app, vals_one. cbn [fst snd]. replace (m + im_lo (maps o)) with g by lia. rewrite Nat.eqb_refl. f_equal.
        change (map (fun q => (g, q)) ?l) with (pack g l). rewrite vals_pack, Nat.eqb_refl. reflexivity.
      - apply seq_NoDup.
      - apply in_seq. lia.
      - intros y _ Hy. destruct (mem _ _); [|reflexivity]. rewrite vals_app, vals_one. cbn [fst snd].
        change (map (fun q => (?a, q)) ?l) with (pack a l). rewrite vals_pack.
        destruct (Nat.eqb_spec (y + im_lo (maps o)) g); [lia|reflexivity]. }
    rewrite EV, EB, EM. unfold see_ghost. apply isort_filter_eq.
    + eapply Permutation_NoDup; [apply Permutation_app_comm|]. cbn. constructor.
      * intro Hi. apply filter_In in Hi as (Hi & _). apply pos_ranks in Hi as (_ & Hi); auto.
        apply (ghost_not_owned P maps Hok o _ HoP Hi). rewrite <- Hgm. exact How.
      * apply NoDup_filter. now apply NoDup_pos_ranks.
    + intro q. rewrite in_app_iff, filter_In, pos_ranks by assumption.
      rewrite andb_true_iff, orb_true_iff, !negb_true_iff, !Nat.eqb_neq, Nat.eqb_eq, mem_iff, <- Hgm. cbn [In].
      split.
      * intros [((Hq & Hgq) & Hne)|[<-|[]]]; (split; [assumption|]); split; auto.
      * intros (Hq & Hne & [->|Hgq]); [right; now left|]. left. auto.
Qed.

Lemma i2d_ok r : r < P -> exists data offsets,
  index_to_dest_ranks P nbx maps r = Some (data, offsets) /\
  (forall i, i < size_local (maps r) ->
     slice_at data offsets i = Some (filter (fun q => mem (im_lo (maps r) + i) (im_ghosts (maps q))) (seq 0 P))) /\
  (forall k g o, nth_error (im_ghosts (maps r)) k = Some g -> nth_error (im_owners (maps r)) k = Some o ->
     slice_at data offsets (size_local (maps r) + k) = Some (see_ghost r o g)).
Proof.
  intro Hr. destruct (i2d_full r Hr) as (rows & E & _ & H1 & H2). do 2 eexists. split; [exact E|]. split.
  - intros i Hi. apply slice_at_concat. auto.
  - intros k g o Hg Ho. apply slice_at_concat. eauto.
Qed.
End Shared.

(** ** Statements used by the property file *)
Lemma maps_make_ok P nbx local_size ghosts owners : nbx_oracle P nbx -> 0 < P ->
  inputs_ok P local_size ghosts owners ->
  exists maps, maps_ok P maps /\
    forall r, r < P -> imap_make P nbx local_size ghosts owners r = Some (maps r) /\
      im_ghosts (maps r) = ghosts r /\ im_owners (maps r) = owners r /\
      size_local (maps r) = local_size r /\ im_size_global (maps r) = lsum (map local_size (seq 0 P)).
Proof.
  intros Hn HP Hin. exists (built P nbx local_size ghosts owners). now apply built_ok.
Qed.

Lemma plain_ok P local_size : 0 < P -> maps_ok P (imap_plain P local_size).
Proof.
  intro HP. assert (G : forall r, im_ghosts (imap_plain P local_size r) = []) by reflexivity.
  constructor.
  - reflexivity.
  - intros r Hr. cbn. apply exscan_S.
  - intros r Hr. cbn. lia.
  - reflexivity.
  - intros; constructor.
  - intros r k g o Hr H. rewrite G in H. destruct k; discriminate.
  - intros r Hr. split; [constructor|]. cbn. tauto.
  - intros r Hr. split; [constructor|]. cbn. tauto.
Qed.

Lemma ranges_partition P maps : 0 < P -> maps_ok P maps ->
  let n := lsum (map (fun q => size_local (maps q)) (seq 0 P)) in
  (forall r, r < P -> im_lo (maps r) = lsum (map (fun q => size_local (maps q)) (seq 0 r)) /\
                      im_hi (maps r) = lsum (map (fun q => size_local (maps q)) (seq 0 (S r)))) /\
  (forall r g, r < P -> owns (maps r) g -> g < n) /\
  (forall g, g < n -> exists r, r < P /\ owns (maps r) g /\ forall s, s < P -> owns (maps s) g -> s = r).
Proof.
  intros HP Hok n.
  assert (A : forall r, r < P -> im_lo (maps r) = lsum (map (fun q => size_local (maps q)) (seq 0 r)) /\
                      im_hi (maps r) = lsum (map (fun q => size_local (maps q)) (seq 0 (S r)))).
  { intros r Hr. pose proof (lo_is_sum P maps Hok r Hr) as E. split; [exact E|].
    rewrite seq_S, map_app, lsum_app. cbn [map]. rewrite lsum_cons, lsum_nil, <- E.
    pose proof (mo_range _ _ Hok r Hr). unfold size_local. cbn. lia. }
  split; [exact A|]. split.
  - intros r g Hr Hg. destruct (A r Hr) as (_ & E). unfold owns in Hg.
    assert (im_hi (maps r) <= n); [|lia]. rewrite E. unfold n.
    apply (exscan_mono (fun q => size_local (maps q)) (S r) P). lia.
  - intros g Hg. destruct (A (P - 1)) as (_ & E); [lia|]. replace (S (P - 1)) with P in E by lia. fold n in E.
    destruct (owner_exists P maps Hok g (P - 1)) as (r & Hr & Ho); [lia|lia|].
    exists r. split; [lia|]. split; [exact Ho|]. intros s Hs Hso. apply (owner_unique P maps Hok s r g); auto. lia.
Qed.

Lemma i2d_statement P maps nbx : nbx_oracle P nbx -> maps_ok P maps -> forall r, r < P ->
  exists data offsets, index_to_dest_ranks P nbx maps r = Some (data, offsets) /\
  length offsets = size_local (maps r) + num_ghosts (maps r) + 1 /\
  (forall i, i < size_local (maps r) -> exists ranks,
     slice_at data offsets i = Some ranks /\ StronglySorted lt ranks /\
     forall q, In q ranks <-> q < P /\ In (im_lo (maps r) + i) (im_ghosts (maps q))) /\
  (forall k g o, nth_error (im_ghosts (maps r)) k = Some g -> nth_error (im_owners (maps r)) k = Some o ->
     exists ranks, slice_at data offsets (size_local (maps r) + k) = Some ranks /\ StronglySorted lt ranks /\
     forall q, In q ranks <-> q < P /\ q <> r /\ (q = o \/ In g (im_ghosts (maps q)))).
Proof.
  intros Hn Hok r Hr. destruct (i2d_full P maps Hok nbx Hn r Hr) as (rows & E & Hl & H1 & H2).
  do 2 eexists. split; [exact E|]. split; [rewrite psums_length, map_length, Hl; lia|]. split.
  - intros i Hi. eexists. split; [apply slice_at_concat; eauto|]. split; [apply SS_filter, SS_lt_seq|].
    intro q. rewrite filter_In, in_seq, mem_iff. intuition lia.
  - intros k g o Hg Ho. eexists. split; [apply slice_at_concat; eauto|]. split; [apply SS_filter, SS_lt_seq|].
    intro q. unfold see_ghost. rewrite filter_In, in_seq, andb_true_iff, orb_true_iff, negb_true_iff, Nat.eqb_neq, Nat.eqb_eq, mem_iff.
    intuition lia.
Qed.

Lemma l2g_all P maps : maps_ok P maps -> forall r, r < P ->
  let m := maps r in
  (forall i, (exists g, local_to_global m i = Some g) <-> i < size_local m + num_ghosts m) /\
  (forall i g, local_to_global m i = Some g -> global_to_local m g = Z.of_nat i) /\
  (forall g, (0 <= global_to_local m g)%Z -> local_to_global m (Z.to_nat (global_to_local m g)) = Some g) /\
  (forall g, global_to_local m g = (-1)%Z <-> ~ owns m g /\ ~ In g (im_ghosts m)) /\
  (forall i, nth_error (global_indices m) i = local_to_global m i).
Proof.
  intros Hok r Hr m.
  assert (Hno : forall g, In g (im_ghosts m) -> ~ owns m g) by (intros; now apply (ghost_not_owned P maps Hok)).
  pose proof (mo_once _ _ Hok r Hr) as Hn. pose proof (mo_range _ _ Hok r Hr) as Hrg.
  split; [|split; [|split; [|split]]].
  - intro. now apply l2g_some.
  - intros. now apply g2l_l2g.
  - intros. now apply l2g_g2l.
  - intros. now apply g2l_absent.
  - intros. apply global_indices_nth.
Qed.
