(** Numbers of dofs over all ranks. *)
From Verif Require Import Base BaseProofs BucketProofs Algo AlgoProofs Nbx World WorldProofs IndexMap IndexMapSpec IndexMapProofs ImSharedProofs SparsityProofs OrientProofs CellTypes DofBuilder DofSpec DofReq DofCells DofBasic RenumSpec DofRenum.
Open Scope nat_scope.

(** ** Searching a sorted table *)
Lemma tri_leb_iff a b : tri_leb a b = true <-> fst a < fst b \/ fst a = fst b /\ pair_leb (snd a) (snd b) = true.
Proof. unfold tri_leb. rewrite orb_true_iff, andb_true_iff, Nat.ltb_lt, Nat.eqb_eq. tauto. Qed.
Lemma tri_sorted l : StronglySorted (fun a b => fst a <= fst b) (isort tri_leb l).
Proof.
  eapply SS_impl_in; [|apply isort_sorted].
  - intros x y _ _ H. apply tri_leb_iff in H. lia.
  - intros x y. rewrite !tri_leb_iff. destruct (Nat.lt_trichotomy (fst x) (fst y)) as [H|[H|H]]; [left; left; exact H| |right; left; exact H].
    destruct (pleb_total (snd x) (snd y)); [left|right]; right; split; auto.
  - intros x y z. rewrite !tri_leb_iff. intros [H1|[H1 H2]] [H3|[H3 H4]]; [left; lia|left; lia|left; lia|right]. split; [lia|]. eapply pleb_trans; eauto.
Qed.
Lemma lower_hit {A} (key : A -> nat) l v y : StronglySorted (fun a b => key a <= key b) l -> In y l -> key y = v ->
  exists z, nth_error l (prefix_len (fun a => key a <? v) l) = Some z /\ In z l /\ key z = v.
Proof.
  induction l as [|x l IH]; intros S Hy Ev; [destruct Hy|]. apply StronglySorted_inv in S as [S Hx]. cbn [prefix_len].
  destruct (Nat.ltb_spec (key x) v) as [L|L].
  - destruct Hy as [<-|Hy]; [lia|]. destruct (IH S Hy Ev) as (z & E & Hz & Ez). exists z. split; [exact E|]. split; [now right|exact Ez].
  - exists x. split; [reflexivity|]. split; [now left|]. destruct Hy as [<-|Hy]; [exact Ev|]. rewrite Forall_forall in Hx. specialize (Hx y Hy). lia.
Qed.
Lemma upper_block {A} (L : list (list A)) b m a : nth_error L b = Some m -> a < length m ->
  upper_bound (psums (map (@length A) L)) (lsum (firstn b (map (@length A) L)) + a) = S b.
Proof.
  intros Hb Ha. unfold upper_bound. set (ls := map (@length A) L). pose proof (nth_error_bound _ _ _ Hb) as Bb.
  assert (Lls : length ls = length L) by apply map_length.
  assert (Eb : nth_error ls b = Some (length m)) by (unfold ls; rewrite nth_error_map_some, Hb; reflexivity).
  assert (G : forall l n, n <= length l -> (forall i y, i < n -> nth_error l i = Some y -> y <= lsum (firstn b ls) + a) -> (forall y, nth_error l n = Some y -> lsum (firstn b ls) + a < y) -> prefix_len (fun y => y <=? lsum (firstn b ls) + a) l = n).
  { induction l as [|x l IH]; intros n Hn H1 H2; [cbn in *; lia|]. cbn [prefix_len]. destruct n as [|n].
    - specialize (H2 x eq_refl). rewrite (proj2 (Nat.leb_gt _ _)) by lia. reflexivity.
    - pose proof (H1 0 x ltac:(lia) eq_refl) as H0. rewrite (proj2 (Nat.leb_le _ _)) by lia. f_equal. apply IH; [cbn in Hn; lia| |].
      + intros i y Hi E. apply (H1 (S i) y); [lia|exact E].
      + exact H2. }
  apply G.
  - rewrite psums_length. lia.
  - intros i y Hi E. rewrite psums_nth in E by lia. injection E as <-. pose proof (lsum_firstn_mono ls i b). lia.
  - intros y E. rewrite psums_nth in E by lia. assert (y = lsum (firstn (S b) ls)) as -> by congruence. rewrite (lsum_firstn_S _ _ _ Eb). lia.
Qed.

Section GI.
Variables (P : nat) (rq : list req) (tps : nat -> topo) (maps : nat -> nat -> imap) (o2n : nat -> list nat).
Let K := length rq.
Hypothesis Hm : forall k, k < K -> maps_ok P (maps k).
Hypothesis Hmap : forall k q r, q < P -> nth_error rq k = Some r -> maps k q = req_map (tps q) r.
Hypothesis Hsz : forall k q, k < K -> q < P -> im_size_global (maps k q) = im_hi (maps k (P - 1)).
Definition szs (q : nat) : list nat := map (fun r => size_local (req_map (tps q) r)) rq.
Definition de (q : nat) : list (nat * nat) := dof_entities (tps q) rq.
Definition own (q : nat) : nat := nowned (szs q) (de q).
Hypothesis Hren : forall q, q < P -> renum_ok (szs q) (de q) (o2n q) (own q).
Definition gin (q : nat) : gi_input := {| gi_owned := own q; gi_offset := global_start (tps q) rq; gi_old := old_globals (tps q) rq; gi_o2n := o2n q; gi_de := de q |}.
Variable inp : nat -> option gi_input.
Hypothesis Hinp : forall q, q < P -> inp q = Some (gin q).
Definition tot (q : nat) : nat := total (tps q) rq.
Definition offq (q : nat) : nat := global_start (tps q) rq.
Definition dofn (q k n x j : nat) : nat := off_at (tps q) rq k + n * x + j.

Lemma k_lt k r : nth_error rq k = Some r -> k < K.
Proof using Type. clear. apply nth_error_bound. Qed.
Lemma o2n_len q : q < P -> length (o2n q) = tot q.
Proof. intros Hq. destruct (Hren q Hq) as (Pq & _). rewrite (Permutation_length Pq), seq_length. apply dof_entities_len. Qed.
Lemma o2n_inj q i j v : q < P -> nth_error (o2n q) i = Some v -> nth_error (o2n q) j = Some v -> i = j.
Proof. intros Hq. destruct (Hren q Hq) as (Pq & _). apply NoDup_nth_error_inj. eapply Permutation_NoDup; [symmetry; exact Pq|apply seq_NoDup]. Qed.

(** Everything about dof [j] of entity [x] of map [k] *)
Lemma dof_facts q k r x j : q < P -> nth_error rq k = Some r -> x < map_size (maps k q) -> j < snd r ->
  exists g v, local_to_global (maps k q) x = Some g /\ nth_error (o2n q) (dofn q k (snd r) x j) = Some v /\ (v < own q <-> x < size_local (maps k q)) /\
    nth_error (de q) (dofn q k (snd r) x j) = Some (k, x) /\ nth_error (old_globals (tps q) rq) (dofn q k (snd r) x j) = Some (goff_at (tps q) rq k + snd r * g + j).
Proof.
  intros Hq Hk Hx Hj. pose proof (Hmap k q r Hq Hk) as Em. pose proof (Hm k (k_lt _ _ Hk)) as Mk.
  destruct (proj2 (l2g_some (maps k q) (mo_range _ _ Mk q Hq) x)) as (g & Hg); [exact Hx|].
  rewrite Em in Hx, Hg. destruct (nth_error_lt (o2n q) (dofn q k (snd r) x j)) as (v & Hv); [rewrite o2n_len by exact Hq; now apply dof_total|].
  pose proof (dof_entities_nth (tps q) rq k r x j Hk Hx Hj) as Ed. exists g, v. rewrite Em. split; [exact Hg|]. split; [exact Hv|]. split; [|split; [exact Ed|now apply old_globals_nth]].
  destruct (Hren q Hq) as (_ & Ho). rewrite (Ho _ _ Hv). unfold dof_owned. fold (dofn q k (snd r) x j) in Ed. split.
  - intros (k' & x' & o & E1 & E2 & L). unfold de in E1. rewrite Ed in E1. injection E1 as <- <-. unfold szs in E2. rewrite nth_error_map_some, Hk in E2. cbn in E2. injection E2 as <-. exact L.
  - intros L. exists k, x, (size_local (req_map (tps q) r)). split; [exact Ed|]. split; [|exact L]. unfold szs. rewrite nth_error_map_some, Hk. reflexivity.
Qed.
Lemma index_facts q i : q < P -> i < tot q -> exists k r x j, nth_error rq k = Some r /\ x < map_size (maps k q) /\ j < snd r /\ i = dofn q k (snd r) x j.
Proof. intros Hq Hi. destruct (dof_index (tps q) rq i Hi) as (k & r & x & j & Hk & Hx & Hj & E). exists k, r, x, j. rewrite (Hmap k q r Hq Hk). auto. Qed.
Lemma dofn_inj q k r x j k' r' x' j' : q < P -> nth_error rq k = Some r -> x < map_size (maps k q) -> j < snd r -> nth_error rq k' = Some r' -> x' < map_size (maps k' q) -> j' < snd r' ->
  dofn q k (snd r) x j = dofn q k' (snd r') x' j' -> k = k' /\ x = x' /\ j = j'.
Proof. intros Hq Hk Hx Hj Hk' Hx' Hj' E. rewrite (Hmap k q r Hq Hk) in Hx. rewrite (Hmap k' q r' Hq Hk') in Hx'. exact (dof_inj (tps q) rq k r x j k' r' x' j' Hk Hx Hj Hk' Hx' Hj' E). Qed.

Lemma goff_same q k : q < P -> goff_at (tps q) rq k = goff_at (tps 0) rq k.
Proof.
  intros Hq. unfold goff_at. f_equal. f_equal. apply map_ext_in. intros r Hr. apply In_nth_error in Hr as (k' & Hk'). f_equal. rewrite <- (Hmap k' q r Hq Hk'), <- (Hmap k' 0 r) by (auto; lia).
  rewrite !Hsz by (try (eapply k_lt; eauto); lia). reflexivity.
Qed.

(** The owner of an entity *)
Lemma canon_owner q k r x g : q < P -> nth_error rq k = Some r -> local_to_global (maps k q) x = Some g ->
  exists o, o < P /\ owns (maps k o) g /\ (x < size_local (maps k q) -> o = q /\ x = g - im_lo (maps k q)) /\
    (size_local (maps k q) <= x -> o <> q /\ In g (im_ghosts (maps k q)) /\ In o (im_src (maps k q)) /\ In q (im_dest (maps k o))).
Proof.
  intros Hq Hk Hg. pose proof (Hm k (k_lt _ _ Hk)) as Mk. unfold local_to_global in Hg. destruct (Nat.ltb_spec x (size_local (maps k q))) as [L|L].
  - injection Hg as <-. exists q. unfold size_local in L. split; [exact Hq|]. split; [unfold owns; lia|]. split; [intros _; split; [reflexivity|lia]|]. unfold size_local. lia.
  - pose proof (nth_error_In _ _ Hg) as Hin. destruct (ghost_owner P (maps k) Mk q g Hq Hin) as (o & m & A & B & C & E & F & G). exists o. split; [exact A|]. split; [exact C|]. split; [lia|]. intros _. split; [exact B|]. split; [exact Hin|].
    split; [now apply (src_in P (maps k) Mk)|]. apply (dest_in P (maps k) Mk); auto.
Qed.

(** ** Messages *)
Lemma shared_entity_ok k q : k < K -> q < P -> exists fl, shared_entity P maps k q = Some fl /\
  forall x, nth_error fl x = Some true <-> x < size_local (maps k q) /\ exists s, s < P /\ In (im_lo (maps k q) + x) (im_ghosts (maps k s)).
Proof.
  intros Hk Hq. destruct (shared_indices_ok P (maps k) (Hm k Hk) q Hq) as (l & El & _ & Hl). unfold shared_entity. rewrite El. cbn [obind].
  destruct (ofold_prefix_ind (fun s i => upd s i true) (fun p s => length s = size_local (maps k q) /\ forall x, nth_error s x = Some true <-> In x p) l (repeat false (size_local (maps k q)))) as (fl & E & L & Hf).
  - split; [apply repeat_length|]. intros x. split; [|intros []]. intros H. apply nth_error_In, repeat_spec in H. discriminate.
  - intros p x t s E (I1 & I2). assert (Hx : x < size_local (maps k q)) by (apply Hl; rewrite E; apply in_or_app; right; now left). destruct (upd_some s x true) as (s' & Hs); [lia|]. exists s'. split; [exact Hs|]. split; [rewrite (upd_length _ _ _ _ Hs); exact I1|].
    intros y. rewrite (upd_nth _ _ _ y _ Hs), in_app_iff, <- I2. cbn [In]. destruct (Nat.eqb_spec x y) as [->|N]; [tauto|]. split; [auto|]. intros [H|[H|[]]]; [exact H|congruence].
  - exists fl. split; [exact E|]. intros x. rewrite Hf. apply Hl.
Qed.

Definition gpair (k q : nat) (on : nat * nat) : Prop :=
  exists r x j v, nth_error rq k = Some r /\ x < size_local (maps k q) /\ (exists s, s < P /\ In (im_lo (maps k q) + x) (im_ghosts (maps k s))) /\ j < snd r /\
    nth_error (o2n q) (dofn q k (snd r) x j) = Some v /\ on = (goff_at (tps 0) rq k + snd r * (im_lo (maps k q) + x) + j, v + offq q).
Lemma in_triple {A B C} (a : list A) (b : list B) (c : list C) x y z : In (x, (y, z)) (combine a (combine b c)) <-> exists i, nth_error a i = Some x /\ nth_error b i = Some y /\ nth_error c i = Some z.
Proof using Type.
  clear. split.
  - intros H. apply in_combine_nth in H as (i & H1 & H2). exists i. split; [exact H1|]. clear H1. revert c i H2. induction b as [|u b IH]; intros [|w c] [|i] H2; cbn in *; try discriminate; [injection H2 as -> ->; auto|eauto].
  - intros (i & H1 & H2 & H3). eapply combine_nth2; [exact H1|]. now apply nth_combine.
Qed.
Lemma de_at q i k x : q < P -> nth_error (de q) i = Some (k, x) -> exists r j, nth_error rq k = Some r /\ x < map_size (maps k q) /\ j < snd r /\ i = dofn q k (snd r) x j.
Proof.
  intros Hq H. assert (Hi : i < tot q) by (rewrite <- (o2n_len q Hq); pose proof (nth_error_bound _ _ _ H) as B; unfold de in B; rewrite dof_entities_len in B; rewrite o2n_len by exact Hq; exact B).
  destruct (index_facts q i Hq Hi) as (k' & r & x' & j & Hk & Hx & Hj & ->). destruct (dof_facts q k' r x' j Hq Hk Hx Hj) as (g & v & _ & _ & _ & E & _). rewrite H in E. injection E as <- <-. exists r, j. auto.
Qed.

Lemma global_pairs_ok k q : k < K -> q < P -> exists l, global_pairs P maps inp k q = Some l /\ forall on, In on l <-> gpair k q on.
Proof.
  intros Hk Hq. destruct (shared_entity_ok k q Hk Hq) as (fl & Ef & Hf). unfold global_pairs. rewrite Hinp by exact Hq. cbn [obind]. rewrite Ef. cbn [obind].
  set (F := fun x : (nat * nat) * (nat * nat) => let '((d, entity), (old, new)) := x in if (d =? k) && match nth_error fl entity with Some b => b | None => false end then [(old, new + gi_offset (gin q))] else []).
  rewrite (omap_map _ F) by (intros [[d e] [o n]] _; reflexivity). cbn [obind]. eexists. split; [reflexivity|]. intros on. rewrite in_concat. split.
  - intros (l & Hl & Hin). apply in_map_iff in Hl as ([[d e] [old new]] & <- & Hx). unfold F in Hin. destruct (Nat.eqb_spec d k) as [->|N]; [|destruct Hin]. cbn [andb] in Hin.
    destruct (nth_error fl e) as [[|]|] eqn:Ee; [|destruct Hin|destruct Hin]. destruct Hin as [<-|[]]. apply Hf in Ee as (Le & Hs). apply in_triple in Hx as (i & Hd & Ho & Hn). cbn [gin gi_de gi_old gi_o2n gi_offset] in *.
    destruct (de_at q i k e Hq Hd) as (r & j & Hr & Hx & Hj & ->). destruct (dof_facts q k r e j Hq Hr Hx Hj) as (g & v & Hg & Hv & _ & _ & Hold). rewrite Hold in Ho. injection Ho as <-. rewrite goff_same by exact Hq.
    rewrite l2g_own in Hg by exact Le. injection Hg as <-. exists r, e, j, new. rewrite Hn. auto 10.
  - intros (r & x & j & v & Hr & Lx & Hs & Hj & Hv & ->). assert (Hx : x < map_size (maps k q)) by (unfold map_size; lia). destruct (dof_facts q k r x j Hq Hr Hx Hj) as (g & v' & Hg & Hv' & _ & Hd & Hold). rewrite Hv in Hv'. injection Hv' as <-.
    rewrite l2g_own in Hg by exact Lx. injection Hg as <-. eexists. split.
    + apply in_map_iff. exists ((k, x), (goff_at (tps q) rq k + snd r * (im_lo (maps k q) + x) + j, v)). split; [reflexivity|]. apply in_triple. exists (dofn q k (snd r) x j). cbn [gin gi_de gi_old gi_o2n]. auto.
    + unfold F. rewrite Nat.eqb_refl. cbn [andb]. rewrite (proj2 (Hf x)) by auto. left. rewrite goff_same by exact Hq. reflexivity.
Qed.

Lemma old_new_ok k q : k < K -> q < P -> exists tab, old_new P maps inp k q = Some tab /\ StronglySorted (fun a b => fst a <= fst b) tab /\
  forall old new s, In (old, (new, s)) tab <-> In s (im_src (maps k q)) /\ gpair k s (old, new).
Proof.
  intros Hk Hq. pose proof (Hm k Hk) as Mk.
  set (GP := fun s => match global_pairs P maps inp k s with Some l => l | None => [] end).
  assert (HGP : forall s, s < P -> global_pairs P maps inp k s = Some (GP s) /\ forall on, In on (GP s) <-> gpair k s on).
  { intros s Hs. destruct (global_pairs_ok k s Hk Hs) as (l & E & Hl). unfold GP. rewrite E. auto. }
  assert (Hsrc : forall s, In s (im_src (maps k q)) -> s < P) by (intros s Hs; apply (src_in P (maps k) Mk) in Hs; [|exact Hq]; apply (owner_lt P (maps k) Mk q s Hq Hs)).
  unfold old_new, received_pairs.
  rewrite (neigh_alltoall_spec P _ _ _ (fun s _ => GP s) q (graph_ok_sym _ _ _ (src_dest_graph P (maps k) Mk)) Hq).
  2:{ intros s Hs. rewrite (proj1 (HGP s (Hsrc s Hs))). cbn [obind]. now rewrite map_const. }
  cbn [obind]. set (L := map (fun s => GP s) (im_src (maps k q))).
  assert (Hel : forall j on, nth_error (concat L) j = Some on -> exists b s, nth_error (im_src (maps k q)) b = Some s /\ In on (GP s) /\ upper_bound (psums (map (@length _) L)) j - 1 = b).
  { intros j on Hj. destruct (concat_index L j) as (b & m & a & Hb & Ha & ->); [eapply nth_error_bound; eauto|]. rewrite (nth_error_concat L b m a Hb Ha) in Hj.
    rewrite (upper_block L b m a Hb Ha). unfold L in Hb. rewrite nth_error_map_some in Hb. destruct (nth_error (im_src (maps k q)) b) as [s|] eqn:Es; [|discriminate]. cbn in Hb. injection Hb as <-. exists b, s. split; [exact Es|]. split; [eapply nth_error_In; eauto|lia]. }
  destruct (omap_some (fun jx : nat * (nat * nat) => s <- nth_error (im_src (maps k q)) (upper_bound (psums (map (@length _) L)) (fst jx) - 1) ;; Some (fst (snd jx), (snd (snd jx), s))) (combine (seq 0 (length (concat L))) (concat L))) as (l & El).
  { intros [j on] Hin. apply in_enum in Hin. destruct (Hel j on Hin) as (b & s & Es & _ & Eu). cbn [fst snd]. rewrite Eu, Es. cbn [obind]. eauto. }
  rewrite El. cbn [obind]. eexists. split; [reflexivity|]. split; [apply tri_sorted|]. intros old new s. rewrite isort_in. split.
  - intros Hin. apply In_nth_error in Hin as (i & Hi). rewrite (omap_nth _ _ _ i El) in Hi. destruct (nth_error (combine (seq 0 (length (concat L))) (concat L)) i) as [[j on]|] eqn:Ei; [|discriminate]. cbn [obind fst snd] in Hi.
    apply nth_error_In, in_enum in Ei. destruct (Hel j on Ei) as (b & s' & Es & Hon & Eu). rewrite Eu, Es in Hi. cbn [obind] in Hi. injection Hi as <- <- <-. pose proof (nth_error_In _ _ Es) as Hin. split; [exact Hin|]. destruct on as [o' n']. cbn [fst snd]. now apply (HGP s' (Hsrc s' Hin)).
  - intros (Hs & Hg). apply (HGP s (Hsrc s Hs)) in Hg. assert (Hin : In (old, new) (concat L)) by (apply in_concat; exists (GP s); split; [apply in_map_iff; eauto|exact Hg]).
    apply In_nth_error in Hg as (a & Ha). apply In_nth_error in Hs as (b & Hb). assert (HbL : nth_error L b = Some (GP s)) by (unfold L; rewrite nth_error_map_some, Hb; reflexivity). pose proof (nth_error_bound _ _ _ Ha) as Ba.
    pose proof (nth_error_concat L b (GP s) a HbL Ba) as Ec. rewrite Ha in Ec. pose proof (upper_block L b (GP s) a HbL Ba) as Eu. set (i := lsum (firstn b (map (@length _) L)) + a) in *.
    assert (Ee : nth_error (combine (seq 0 (length (concat L))) (concat L)) i = Some (i, (old, new))) by (apply nth_combine; [rewrite nth_error_seq by (eapply nth_error_bound; eauto); reflexivity|exact Ec]).
    eapply nth_error_In with (n := i). rewrite (omap_nth _ _ _ i El), Ee. cbn [obind fst snd]. rewrite Eu. replace (S b - 1) with b by lia. rewrite Hb. reflexivity.
Qed.

Lemma unowned_in k q old m : q < P -> In (old, m) (unowned_pairs k (gin q)) <->
  exists r x j v g, nth_error rq k = Some r /\ x < map_size (maps k q) /\ j < snd r /\ nth_error (o2n q) (dofn q k (snd r) x j) = Some v /\ own q <= v /\ m = v - own q /\
    local_to_global (maps k q) x = Some g /\ old = goff_at (tps 0) rq k + snd r * g + j.
Proof.
  intros Hq. unfold unowned_pairs. rewrite in_concat. split.
  - intros (l & Hl & Hin). apply in_map_iff in Hl as ([[d e] [o n]] & <- & Hx). destruct (Nat.eqb_spec d k) as [->|N]; [|destruct Hin]. cbn [andb] in Hin. destruct (Nat.leb_spec (gi_owned (gin q)) n) as [L|L]; [|destruct Hin]. destruct Hin as [[= <- <-]|[]].
    apply in_triple in Hx as (i & Hd & Ho & Hn). cbn [gin gi_de gi_old gi_o2n gi_owned] in *. destruct (de_at q i k e Hq Hd) as (r & j & Hr & Hx & Hj & ->).
    destruct (dof_facts q k r e j Hq Hr Hx Hj) as (g & v & Hg & Hv & _ & _ & Hold). rewrite Hold in Ho. injection Ho as <-. rewrite goff_same by exact Hq. exists r, e, j, n, g. auto 12.
  - intros (r & x & j & v & g & Hr & Hx & Hj & Hv & Lv & -> & Hg & ->). destruct (dof_facts q k r x j Hq Hr Hx Hj) as (g' & v' & Hg' & Hv' & _ & Hd & Hold). rewrite Hg in Hg'. injection Hg' as <-.
    eexists. split.
    + apply in_map_iff. exists ((k, x), (goff_at (tps q) rq k + snd r * g + j, v)). split; [reflexivity|]. apply in_triple. exists (dofn q k (snd r) x j). cbn [gin gi_de gi_old gi_o2n]. auto.
    + cbn [gin gi_owned]. rewrite Nat.eqb_refl. cbn [andb]. rewrite (proj2 (Nat.leb_le _ _) Lv). left. rewrite goff_same by exact Hq. reflexivity.
Qed.

(** The number [G] of dof [j] of the entity with global number [g] of map [k], owner [o] *)
Definition canon (k g j G o : nat) : Prop :=
  exists r v, nth_error rq k = Some r /\ j < snd r /\ o < P /\ owns (maps k o) g /\ nth_error (o2n o) (dofn o k (snd r) (g - im_lo (maps k o)) j) = Some v /\ v < own o /\ G = v + offq o.
Lemma canon_ex q k r x j g : q < P -> nth_error rq k = Some r -> local_to_global (maps k q) x = Some g -> j < snd r ->
  exists G o, canon k g j G o.
Proof.
  intros Hq Hk Hg Hj. destruct (canon_owner q k r x g Hq Hk Hg) as (o & Ho & Hw & _). unfold owns in Hw.
  assert (Lx : g - im_lo (maps k o) < size_local (maps k o)) by (unfold size_local; lia).
  destruct (dof_facts o k r (g - im_lo (maps k o)) j Ho Hk) as (g' & v & _ & Hv & Lv & _); [unfold map_size; lia|exact Hj|].
  exists (v + offq o), o, r, v. unfold owns. split; [exact Hk|]. split; [exact Hj|]. split; [exact Ho|]. split; [exact Hw|]. split; [exact Hv|]. split; [now apply Lv|reflexivity].
Qed.
Lemma canon_fun k g j G o G' o' : canon k g j G o -> canon k g j G' o' -> G = G' /\ o = o'.
Proof.
  intros (r & v & Hk & Hj & Ho & Hw & Hv & Lv & ->) (r' & v' & Hk' & Hj' & Ho' & Hw' & Hv' & Lv' & ->). rewrite Hk in Hk'. injection Hk' as <-.
  assert (o' = o) as -> by (exact (owner_unique P (maps k) (Hm k (k_lt _ _ Hk)) o' o g Ho' Ho Hw' Hw)). rewrite Hv in Hv'. injection Hv' as <-. auto.
Qed.

Lemma tab_hit k q r x j g tab : q < P -> nth_error rq k = Some r -> j < snd r -> size_local (maps k q) <= x -> local_to_global (maps k q) x = Some g ->
  StronglySorted (fun a b => fst a <= fst b) tab -> (forall old new s, In (old, (new, s)) tab <-> In s (im_src (maps k q)) /\ gpair k s (old, new)) ->
  exists G o, canon k g j G o /\ nth_error tab (prefix_len (fun a => fst a <? goff_at (tps 0) rq k + snd r * g + j) tab) = Some (goff_at (tps 0) rq k + snd r * g + j, (G, o)).
Proof.
  intros Hq Hk Hj Lx Hg Ss Hin. destruct (canon_ex q k r x j g Hq Hk Hg Hj) as (G & o & HC). exists G, o. split; [exact HC|]. pose proof (Hm k (k_lt _ _ Hk)) as Mk.
  destruct (canon_owner q k r x g Hq Hk Hg) as (o' & Ho' & Hw' & _ & Hgh). destruct (Hgh Lx) as (_ & Hgin & Hsrc & _).
  assert (HC' := HC). destruct HC' as (r' & v & Hk' & _ & Ho & Hw & Hv & Lv & EG). rewrite Hk in Hk'. injection Hk' as <-.
  assert (o' = o) as -> by (exact (owner_unique P (maps k) Mk o' o g Ho' Ho Hw' Hw)). unfold owns in Hw.
  assert (Hrow : In (goff_at (tps 0) rq k + snd r * g + j, (G, o)) tab).
  { apply Hin. split; [exact Hsrc|]. exists r, (g - im_lo (maps k o)), j, v. split; [exact Hk|]. split; [unfold size_local; lia|]. replace (im_lo (maps k o) + (g - im_lo (maps k o))) with g by lia. split; [eauto|]. split; [exact Hj|]. split; [exact Hv|]. now rewrite EG. }
  destruct (lower_hit fst tab (goff_at (tps 0) rq k + snd r * g + j) _ Ss Hrow eq_refl) as ((old & new & s) & Ez & Hz & Eo). cbn [fst] in Eo. rewrite Ez. f_equal. subst old.
  apply Hin in Hz as (Hs & (r2 & x2 & j2 & v2 & Hk2 & Lx2 & _ & Hj2 & Hv2 & E2)). rewrite Hk in Hk2. injection Hk2 as <-. injection E2 as E2 ->.
  destruct (nm_inj (snd r) g j (im_lo (maps k s) + x2) j2 Hj Hj2) as (-> & ->); [lia|].
  assert (Hs' : s < P) by (apply (src_in P (maps k) Mk) in Hs; [|exact Hq]; apply (owner_lt P (maps k) Mk q s Hq Hs)).
  unfold size_local in Lx2. assert (s = o) as -> by (apply (owner_unique P (maps k) Mk s o (im_lo (maps k s) + x2) Hs' Ho); unfold owns; lia).
  replace (im_lo (maps k o) + x2 - im_lo (maps k o)) with x2 in Hv by lia. rewrite Hv2 in Hv. injection Hv as <-. now rewrite EG.
Qed.

(** Position [m] of the ghosts of rank [q] is a dof with number [G], owner [o]. *)
Definition ghost_dof (q m G o : nat) : Prop :=
  exists k r x j g, nth_error rq k = Some r /\ x < map_size (maps k q) /\ j < snd r /\ nth_error (o2n q) (dofn q k (snd r) x j) = Some (own q + m) /\
    local_to_global (maps k q) x = Some g /\ canon k g j G o.
Lemma ghost_dof_fun q m G o G' o' : q < P -> ghost_dof q m G o -> ghost_dof q m G' o' -> G = G' /\ o = o'.
Proof.
  intros Hq (k & r & x & j & g & Hk & Hx & Hj & Hv & Hg & HC) (k' & r' & x' & j' & g' & Hk' & Hx' & Hj' & Hv' & Hg' & HC').
  pose proof (o2n_inj q _ _ _ Hq Hv Hv') as E. apply (dofn_inj q k r x j k' r' x' j') in E; auto. destruct E as (<- & <- & <-). rewrite Hg in Hg'. injection Hg' as <-. exact (canon_fun _ _ _ _ _ _ _ HC HC').
Qed.

Lemma own_le q : q < P -> own q <= tot q.
Proof using Type. intros _. unfold own, tot. pose proof (nowned_le (szs q) (de q)) as H. unfold de in H. rewrite dof_entities_len in H. exact H. Qed.

Theorem global_indices_ok q order : q < P -> Permutation order (seq 0 K) ->
  exists gl ow, global_indices_of P maps inp order q = Some (gl, ow) /\ length gl = tot q - own q /\ length ow = tot q - own q /\
    forall m, m < tot q - own q -> exists G o, ghost_dof q m G o /\ nth_error gl m = Some G /\ nth_error ow m = Some o.
Proof.
  intros Hq Pord. unfold global_indices_of. rewrite Hinp by exact Hq. cbn [obind]. cbn [gin gi_o2n gi_owned]. fold (gin q). rewrite o2n_len by exact Hq.
  set (n := tot q - own q).
  set (done := fun (st : list nat * list nat) m => forall G o, ghost_dof q m G o -> nth_error (fst st) m = Some G /\ nth_error (snd st) m = Some o).
  assert (Hstep : forall k st tab, k < K -> length (fst st) = n -> length (snd st) = n -> StronglySorted (fun a b => fst a <= fst b) tab -> (forall old new s, In (old, (new, s)) tab <-> In s (im_src (maps k q)) /\ gpair k s (old, new)) ->
    exists st', ofold (fun st ol => let '(l2g, own) := st in x <- nth_error tab (prefix_len (fun a => fst a <? fst ol) tab) ;;
        if fst x =? fst ol then l2g <- upd l2g (snd ol) (fst (snd x)) ;; own <- upd own (snd ol) (snd (snd x)) ;; Some (l2g, own) else None) (unowned_pairs k (gin q)) st = Some st' /\
      length (fst st') = n /\ length (snd st') = n /\ (forall m, done st m -> done st' m) /\ forall old m, In (old, m) (unowned_pairs k (gin q)) -> done st' m).
  { intros k st tab Hk L1 L2 Ss Hin.
    apply (ofold_prefix_ind _ (fun p st' => length (fst st') = n /\ length (snd st') = n /\ (forall m, done st m -> done st' m) /\ forall old m, In (old, m) p -> done st' m)).
    - split; [exact L1|]. split; [exact L2|]. split; [auto|]. intros old m [].
    - intros p (old, m) t (gl, ow) E (I1 & I2 & I3 & I4). cbn [fst snd] in *. assert (Hu : In (old, m) (unowned_pairs k (gin q))) by (rewrite E; apply in_or_app; right; now left).
      apply unowned_in in Hu as (r & x & j & v & g & Hr & Hx & Hj & Hv & Lv & -> & Hg & ->); [|exact Hq].
      assert (Lx : size_local (maps k q) <= x). { destruct (dof_facts q k r x j Hq Hr Hx Hj) as (_ & v' & _ & Hv' & Lv' & _). rewrite Hv in Hv'. injection Hv' as <-. lia. }
      destruct (tab_hit k q r x j g tab Hq Hr Hj Lx Hg Ss Hin) as (G & o & HC & Et). rewrite Et. cbn [obind fst snd]. rewrite Nat.eqb_refl.
      assert (Bv : v < tot q). { destruct (Hren q Hq) as (Pq & _). apply nth_error_In in Hv. rewrite Pq in Hv. apply in_seq in Hv. unfold de in Hv. rewrite dof_entities_len in Hv. unfold tot. lia. }
      assert (Bm : v - own q < n) by (unfold n; lia).
      destruct (upd_some gl (v - own q) G) as (gl' & E1); [lia|]. destruct (upd_some ow (v - own q) o) as (ow' & E2); [lia|]. rewrite E1. cbn [obind]. rewrite E2. cbn [obind]. exists (gl', ow'). split; [reflexivity|]. cbn [fst snd].
      split; [rewrite (upd_length _ _ _ _ E1); exact I1|]. split; [rewrite (upd_length _ _ _ _ E2); exact I2|].
      assert (HD : ghost_dof q (v - own q) G o) by (exists k, r, x, j, g; replace (own q + (v - own q)) with v by lia; auto 10).
      assert (Hkeep : forall m, done (gl, ow) m -> done (gl', ow') m).
      { intros m Hd G' o' HG'. cbn [fst snd]. rewrite (upd_nth _ _ _ m _ E1), (upd_nth _ _ _ m _ E2). destruct (Nat.eqb_spec (v - own q) m) as [<-|N]; [|exact (Hd G' o' HG')].
        destruct (ghost_dof_fun q _ _ _ _ _ Hq HD HG') as (-> & ->). auto. }
      split; [intros m Hd; apply Hkeep, I3, Hd|]. intros old' m' Hin'. apply in_app_or in Hin' as [Hin'|[[= <- <-]|[]]]; [eapply Hkeep, I4; eauto|].
      intros G' o' HG'. cbn [fst snd]. destruct (ghost_dof_fun q _ _ _ _ _ Hq HD HG') as (<- & <-). rewrite (upd_nth_eq _ _ _ _ E1), (upd_nth_eq _ _ _ _ E2). auto. }
  destruct (ofold_prefix_ind (fun st k => tab <- old_new P maps inp k q ;; ofold (fun st ol => let '(l2g, own) := st in x <- nth_error tab (prefix_len (fun a => fst a <? fst ol) tab) ;;
        if fst x =? fst ol then l2g <- upd l2g (snd ol) (fst (snd x)) ;; own <- upd own (snd ol) (snd (snd x)) ;; Some (l2g, own) else None) (unowned_pairs k (gin q)) st)
     (fun p st => length (fst st) = n /\ length (snd st) = n /\ forall k old m, In k p -> In (old, m) (unowned_pairs k (gin q)) -> done st m) order (repeat 0 n, repeat 0 n)) as ((gl, ow) & E & L1 & L2 & Hd).
  - cbn [fst snd]. rewrite !repeat_length. split; [reflexivity|]. split; [reflexivity|]. intros k old m [].
  - intros p k t st E (I1 & I2 & I3). assert (Hk : k < K). { assert (H : In k order) by (rewrite E; apply in_or_app; right; now left). rewrite Pord in H. apply in_seq in H. lia. }
    destruct (old_new_ok k q Hk Hq) as (tab & Et & Ss & Hin). rewrite Et. cbn [obind]. destruct (Hstep k st tab Hk I1 I2 Ss Hin) as (st' & E' & J1 & J2 & J3 & J4). exists st'. split; [exact E'|]. split; [exact J1|]. split; [exact J2|].
    intros k' old m Hk' Hu. apply in_app_or in Hk' as [Hk'|[<-|[]]]; [eapply J3, I3; eauto|eapply J4; eauto].
  - exists gl, ow. split; [exact E|]. cbn [fst snd] in *. split; [exact L1|]. split; [exact L2|]. intros m Hmn.
    destruct (Hren q Hq) as (Pq & _). assert (Hin : In (own q + m) (o2n q)). { rewrite Pq. apply in_seq. unfold de. rewrite dof_entities_len. fold (tot q). unfold n in Hmn. lia. }
    apply In_nth_error in Hin as (i & Hi). assert (Hit : i < tot q) by (rewrite <- (o2n_len q Hq); eapply nth_error_bound; eauto).
    destruct (index_facts q i Hq Hit) as (k & r & x & j & Hk & Hx & Hj & ->). destruct (dof_facts q k r x j Hq Hk Hx Hj) as (g & v & Hg & Hv & _ & _ & _).
    destruct (canon_ex q k r x j g Hq Hk Hg Hj) as (G & o & HC). assert (HD : ghost_dof q m G o) by (exists k, r, x, j, g; auto 10).
    exists G, o. split; [exact HD|]. apply (Hd k (goff_at (tps 0) rq k + snd r * g + j) m).
    + rewrite Pord. apply in_seq. pose proof (k_lt _ _ Hk). lia.
    + apply unowned_in; [exact Hq|]. exists r, x, j, (own q + m), g. split; [exact Hk|]. split; [exact Hx|]. split; [exact Hj|]. split; [exact Hi|]. split; [lia|]. split; [lia|]. auto.
    + exact HD.
Qed.
End GI.
