From Verif Require Import Base BaseProofs BucketProofs Algo AlgoProofs Nbx World WorldProofs
  IndexMap IndexMapSpec IndexMapProofs ImSharedProofs Scatterer.

Lemma upper_sizes_groups ks (b : nat -> list nat) : StronglySorted lt ks ->
  upper_sizes ks (concat (map (fun k => map (fun _ => k) (b k)) ks)) = map (fun k => length (b k)) ks.
Proof.
  induction 1 as [|k ks Hs IH Hk]; [reflexivity|]. cbn [map concat upper_sizes].
  assert (E : prefix_len (fun o => o <=? k) (map (fun _ => k) (b k) ++ concat (map (fun k => map (fun _ => k) (b k)) ks)) = length (b k)).
  { rewrite prefix_len_app.
    - rewrite map_length. destruct (concat _) as [|x t] eqn:Ec; [cbn; lia|]. rewrite prefix_len_stop; [lia|].
      assert (Hx : In x (concat (map (fun k => map (fun _ => k) (b k)) ks))) by (rewrite Ec; now left).
      apply in_concat in Hx as (l & Hl & Hx). apply in_map_iff in Hl as (k' & <- & Hk').
      apply in_map_iff in Hx as (y & <- & _). rewrite Forall_forall in Hk. specialize (Hk k' Hk'). apply Nat.leb_gt. lia.
    - intros x Hx. apply in_map_iff in Hx as (y & <- & _). apply Nat.leb_refl. }
  rewrite E. f_equal. rewrite skipn_app.
  replace (skipn (length (b k)) (map (fun _ => k) (b k))) with (@nil nat).
  - rewrite map_length, Nat.sub_diag. exact IH.
  - symmetry. apply skipn_all2. rewrite map_length. lia.
Qed.

Lemma psums_scale c l : map (fun e => e * c) (psums l) = psums (map (fun e => e * c) l).
Proof.
  unfold psums. change 0 with (0 * c) at 2. generalize 0 as a. induction l as [|x t IH]; intro a; cbn [psums_from map]; [reflexivity|].
  rewrite IH. f_equal. f_equal. lia.
Qed.

(** Indices [(p, j)] of the entries of the blocks in [v]. *)
Definition cross {A} (v : list A) (bs : nat) : list (A * nat) := concat (map (fun p => map (pair p) (seq 0 bs)) v).
Lemma expand_cross bs v : expand bs v = map (fun pj => fst pj * bs + snd pj) (cross v bs).
Proof. unfold expand, cross. rewrite concat_map, map_map. f_equal. apply map_ext. intro p. now rewrite map_map. Qed.
Lemma cross_length {A} (v : list A) bs : length (cross v bs) = length v * bs.
Proof.
  unfold cross. induction v as [|p t IH]; [reflexivity|]. cbn [map concat]. rewrite app_length, map_length, seq_length, IH. cbn. lia.
Qed.
Lemma cross_in {A} (v : list A) bs p j : In (p, j) (cross v bs) <-> In p v /\ j < bs.
Proof.
  unfold cross. rewrite in_concat. split.
  - intros (l & Hl & H). apply in_map_iff in Hl as (q & <- & Hq). apply in_map_iff in H as (i & E & Hi).
    injection E as -> ->. apply in_seq in Hi. split; [exact Hq|lia].
  - intros (Hp & Hj). exists (map (pair p) (seq 0 bs)). split; [apply in_map_iff; eauto|]. apply in_map, in_seq. lia.
Qed.
Lemma cross_concat {A} (L : list (list A)) bs : cross (concat L) bs = concat (map (fun v => cross v bs) L).
Proof.
  induction L as [|v t IH]; [reflexivity|]. cbn [concat map]. rewrite <- IH. unfold cross. now rewrite map_app, concat_app.
Qed.
Lemma cross_map {A B} (f : A -> B) v bs : cross (map f v) bs = map (fun pj => (f (fst pj), snd pj)) (cross v bs).
Proof.
  unfold cross. rewrite map_map, concat_map, map_map. f_equal. apply map_ext. intro p. now rewrite map_map.
Qed.
Lemma NoDup_app_intro {A} (a b : list A) : NoDup a -> NoDup b -> (forall x, In x a -> ~ In x b) -> NoDup (a ++ b).
Proof.
  induction 1 as [|x t Hx Ht IH]; intros Hb Hd; [exact Hb|]. cbn. constructor.
  - rewrite in_app_iff. intros [H|H]; [contradiction|]. apply (Hd x); [now left|exact H].
  - apply IH; [exact Hb|]. intros y Hy. apply Hd. now right.
Qed.
Lemma NoDup_concat {A B} (f : A -> list B) l : NoDup l -> (forall x, In x l -> NoDup (f x)) ->
  (forall x y z, In x l -> In y l -> In z (f x) -> In z (f y) -> x = y) -> NoDup (concat (map f l)).
Proof.
  induction 1 as [|x t Hx Ht IH]; intros Hf Hd; [constructor|]. cbn. apply NoDup_app_intro.
  - apply Hf. now left.
  - apply IH; [intros; apply Hf; now right|]. intros a b z Ha Hb. apply Hd; now right.
  - intros z Hz Hz'. apply in_concat in Hz' as (l & Hl & Hz'). apply in_map_iff in Hl as (y & <- & Hy).
    apply Hx. rewrite (Hd x y z); [exact Hy| | |exact Hz|exact Hz']; [now left|now right].
Qed.
Lemma NoDup_map_inj {A B} (f : A -> B) l : NoDup l -> (forall x y, In x l -> In y l -> f x = f y -> x = y) -> NoDup (map f l).
Proof.
  induction 1 as [|x t Hx Ht IH]; intro Hf; cbn; constructor.
  - intro H. apply in_map_iff in H as (y & E & Hy). apply Hx. rewrite <- (Hf y x); auto; [now right|now left].
  - apply IH. intros; apply Hf; auto; now right.
Qed.
Lemma cross_NoDup {A} (v : list A) bs : NoDup v -> NoDup (cross v bs).
Proof.
  intro H. apply NoDup_concat; [exact H| |].
  - intros x _. apply NoDup_map_inj; [apply seq_NoDup|]. intros a b _ _ E. now injection E.
  - intros x y z _ _ Hx Hy. apply in_map_iff in Hx as (a & <- & _). apply in_map_iff in Hy as (b & E & _). now injection E.
Qed.

Lemma block_inj n a b c d : b < n -> d < n -> a * n + b = c * n + d -> a = c /\ b = d.
Proof.
  intros Hb Hd E. assert (a = c); [|subst; lia].
  destruct (Nat.lt_trichotomy a c) as [H|[H|H]]; [exfalso|exact H|exfalso].
  - assert (S a * n <= c * n) by (apply Nat.mul_le_mono_r; lia). lia.
  - assert (S c * n <= a * n) by (apply Nat.mul_le_mono_r; lia). lia.
Qed.

(** ** unpack *)
Lemma unpack_spec {T} (op : T -> T -> T) idx buf off (x : list T) :
  length idx = length buf -> (forall i, In i idx -> off + i < length x) ->
  exists y, unpack_op T op idx buf off x = Some y /\ length y = length x /\
    (forall a, a < off -> nth_error y a = nth_error x a) /\
    forall a, nth_error y (off + a) = option_map (fun v => fold_left op (vals a (combine idx buf)) v) (nth_error x (off + a)).
Proof.
  intros Hl Hb. unfold unpack_op. rewrite Hl, Nat.eqb_refl.
  destruct (ofold_prefix_ind (fun x ib => modify x (off + fst ib) (fun v => op v (snd ib)))
    (fun p y => length y = length x /\ (forall a, a < off -> nth_error y a = nth_error x a) /\
       forall a, nth_error y (off + a) = option_map (fun v => fold_left op (vals a p) v) (nth_error x (off + a)))
    (combine idx buf) x) as (y & E & H).
  - split; [reflexivity|]. split; [reflexivity|]. intro a. cbn. destruct (nth_error x (off + a)); reflexivity.
  - intros p [i v] q y Ep (Hy & Hlow & Hhi). cbn [fst snd].
    assert (Hi : off + i < length x).
    { apply Hb. apply (in_combine_l idx buf i v). rewrite Ep. apply in_app_iff. right. now left. }
    destruct (modify_some y (off + i) (fun w => op w v)) as (y' & Hy'); [lia|]. exists y'. split; [exact Hy'|].
    split; [rewrite (modify_length _ _ _ _ Hy'); exact Hy|]. split.
    + intros a Ha. rewrite (modify_nth _ _ _ a _ Hy'). destruct (Nat.eqb_spec (off + i) a); [lia|auto].
    + intro a. rewrite (modify_nth _ _ _ (off + a) _ Hy'), Hhi, vals_app, vals_one. cbn [fst snd].
      destruct (Nat.eqb_spec (off + i) (off + a)) as [Ea|Na], (Nat.eqb_spec i a); try lia.
      * destruct (nth_error x (off + a)); cbn; [|reflexivity]. now rewrite fold_left_app.
      * now rewrite app_nil_r.
  - exists y. auto.
Qed.

Lemma combine_map {A B C} (f : A -> B) (g : A -> C) l : combine (map f l) (map g l) = map (fun x => (f x, g x)) l.
Proof. induction l as [|x t IH]; cbn; [reflexivity|]. now rewrite IH. Qed.

Lemma vals_map_filter {A V} (f : A -> nat) (g : A -> V) k l :
  vals k (map (fun x => (f x, g x)) l) = map g (filter (fun x => f x =? k) l).
Proof.
  unfold vals. induction l as [|x t IH]; cbn; [reflexivity|]. destruct (f x =? k); cbn; now rewrite IH.
Qed.

Lemma filter_single {A} (p : A -> bool) l x : NoDup l -> In x l -> p x = true ->
  (forall y, In y l -> p y = true -> y = x) -> filter p l = [x].
Proof.
  intros Hn Hi Hp Hu. induction Hn as [|y t Hy Ht IH]; [destruct Hi|]. cbn.
  destruct (p y) eqn:E.
  - assert (y = x) by (apply Hu; [now left|exact E]). subst y. f_equal. apply filter_none. intros z Hz.
    destruct (p z) eqn:Ez; [|reflexivity]. exfalso. apply Hy. rewrite <- (Hu z); auto. now right.
  - destruct Hi as [->|Hi]; [congruence|]. apply IH; auto. intros; apply Hu; auto. now right.
Qed.

Lemma nth_error_nth_some {A} (l : list A) i d : i < length l -> nth_error l i = Some (nth i l d).
Proof. apply nth_error_nth'. Qed.

Section Proofs.
Variables (P : nat) (maps : nat -> imap) (bs : nat).
Hypothesis Hok : maps_ok P maps.
Notation src q := (im_src (maps q)).
Notation dest q := (im_dest (maps q)).
Notation lo q := (im_lo (maps q)).

(** Positions in rank [q]'s ghost list of the ghosts owned by [d]. *)
Definition gpos (q d : nat) : list nat :=
  filter (fun k => nth k (im_owners (maps q)) P =? d) (seq 0 (num_ghosts (maps q))).
Definition gh (q k : nat) : nat := nth k (im_ghosts (maps q)) 0.

Lemma gpos_in q d k : q < P -> d < P -> In k (gpos q d) <-> nth_error (im_owners (maps q)) k = Some d.
Proof.
  intros Hq Hd. unfold gpos. rewrite filter_In, in_seq, Nat.eqb_eq. unfold num_ghosts. rewrite <- (mo_len _ _ Hok q Hq). split.
  - intros (Hk & E). rewrite <- E. apply nth_error_nth_some. lia.
  - intro H. pose proof (nth_error_bound _ _ _ H). split; [lia|]. now apply nth_error_nth.
Qed.
Lemma gpos_lt q d k : In k (gpos q d) -> k < num_ghosts (maps q).
Proof. intro H. apply filter_In in H as (H & _). apply in_seq in H. lia. Qed.
Lemma gpos_NoDup q d : NoDup (gpos q d).
Proof. apply NoDup_filter, seq_NoDup. Qed.
Lemma gh_nth q k : k < num_ghosts (maps q) -> nth_error (im_ghosts (maps q)) k = Some (gh q k).
Proof. apply nth_error_nth_some. Qed.
Lemma gpos_owns q d k : q < P -> d < P -> In k (gpos q d) -> owns (maps d) (gh q k).
Proof.
  intros Hq Hd Hk. pose proof (gh_nth q k (gpos_lt _ _ _ Hk)) as Hg. apply gpos_in in Hk; auto.
  apply (mo_owner _ _ Hok q k _ d Hq Hg Hk).
Qed.
Lemma src_P q s : q < P -> In s (src q) -> s < P.
Proof. intros Hq Hs. apply (src_in P maps Hok) in Hs; [|exact Hq]. eapply owner_lt; eauto. Qed.
Lemma dest_P q s : q < P -> In s (dest q) -> s < P.
Proof. intros Hq Hs. apply (dest_in P maps Hok) in Hs; [apply Hs|exact Hq]. Qed.

Lemma perm_groups q : q < P -> sc_perm (maps q) = concat (map (gpos q) (src q)).
Proof.
  intro Hq. unfold sc_perm. rewrite (psort_groups (src q)).
  - rewrite (map_snd_groups (src q) _ (fun k => k)). f_equal. apply map_ext_in. intros d Hd.
    assert (HdP := src_P q d Hq Hd).
    unfold gpos. apply isort_filter_eq.
    + apply NoDup_vals; [apply seq_NoDup|now rewrite seq_length].
    + intro k. rewrite vals_in, in_combine_nth, Nat.eqb_eq. unfold num_ghosts. rewrite <- (mo_len _ _ Hok q Hq). split.
      * intros (i & Ho & Hi). pose proof (nth_error_bound _ _ _ Ho). rewrite nth_error_seq in Hi by assumption.
        injection Hi as <-. cbn. split; [assumption|]. now apply nth_error_nth.
      * intros (Hk & E). exists k. rewrite nth_error_seq by assumption. split; [|reflexivity].
        rewrite <- E. now apply nth_error_nth_some.
  - apply (mo_src _ _ Hok q Hq).
  - intros [o k] Hp. apply (src_in P maps Hok); [exact Hq|]. apply in_combine_l in Hp. exact Hp.
Qed.

Lemma in_perm q k : q < P -> In k (sc_perm (maps q)) <-> k < num_ghosts (maps q).
Proof.
  intro Hq. rewrite perm_groups by exact Hq. rewrite in_concat. split.
  - intros (l & Hl & Hk). apply in_map_iff in Hl as (d & <- & _). eapply gpos_lt; eauto.
  - intro Hk. destruct (nth_error_lt (im_owners (maps q)) k) as (o & Ho).
    { rewrite (mo_len _ _ Hok) by exact Hq. exact Hk. }
    pose proof (nth_error_In _ _ Ho) as Hi. exists (gpos q o). split.
    + apply in_map, (src_in P maps Hok); auto.
    + apply gpos_in; auto. eapply owner_lt; eauto.
Qed.

(** Block of global indices sent by [q] to [d]. *)
Definition GB (q d : nat) : list nat := map (gh q) (gpos q d).

Lemma sc_send_ok q : q < P -> sc_send maps q =
  Some (concat (map (GB q) (src q)), (map (fun d => length (GB q d)) (src q), psums (map (fun d => length (GB q d)) (src q)))).
Proof.
  intro Hq. unfold sc_send.
  rewrite omap_map with (g := fun k => nth k (im_owners (maps q)) P).
  2:{ intros k Hk. apply in_perm in Hk; [|exact Hq]. apply nth_error_nth_some. rewrite (mo_len _ _ Hok) by exact Hq. exact Hk. }
  cbn [obind]. rewrite omap_map with (g := gh q).
  2:{ intros k Hk. apply in_perm in Hk; [|exact Hq]. now apply gh_nth. }
  cbn [obind]. rewrite perm_groups by exact Hq. rewrite !concat_map, !map_map.
  rewrite (map_ext_in (fun x => map (fun k => nth k (im_owners (maps q)) P) (gpos q x)) (fun d => map (fun _ => d) (gpos q d))).
  2:{ intros d _. apply map_ext_in. intros k Hk. apply filter_In in Hk as (_ & Hk). now apply Nat.eqb_eq. }
  rewrite upper_sizes_groups by apply (mo_src _ _ Hok q Hq).
  assert (El : map (fun k => length (gpos q k)) (src q) = map (fun d => length (GB q d)) (src q)).
  { apply map_ext. intro d. unfold GB. now rewrite map_length. }
  rewrite El, last_psums.
  replace (length (concat (map (fun x => map (gh q) (gpos q x)) (src q)))) with (lsum (map (fun d => length (GB q d)) (src q))).
  - rewrite Nat.eqb_refl. reflexivity.
  - rewrite <- lsum_concat_length, map_map. reflexivity.
Qed.

(** Entries [(rank, position, component)] in the order of the remote and local buffers. *)
Definition Rk (r : nat) : list (nat * nat * nat) :=
  concat (map (fun o => map (fun kj => (o, fst kj, snd kj)) (cross (gpos r o) bs)) (src r)).
Definition Lk (r : nat) : list (nat * nat * nat) :=
  concat (map (fun s => map (fun kj => (s, fst kj, snd kj)) (cross (gpos s r) bs)) (dest r)).
Definition rpos (t : nat * nat * nat) : nat := let '(_, k, j) := t in k * bs + j.
Definition lpos (r : nat) (t : nat * nat * nat) : nat := let '(s, k, j) := t in (gh s k - lo r) * bs + j.

Lemma in_Rk r o k j : r < P -> In (o, k, j) (Rk r) <-> nth_error (im_owners (maps r)) k = Some o /\ j < bs.
Proof.
  intro Hr. unfold Rk. rewrite in_concat. split.
  - intros (l & Hl & H). apply in_map_iff in Hl as (o' & <- & Ho). apply in_map_iff in H as ([k' j'] & E & H).
    cbn in E. injection E as -> -> ->. apply cross_in in H as (H & Hj). apply gpos_in in H; auto. eapply src_P; eauto.
  - intros (H & Hj). pose proof (nth_error_In _ _ H) as Hin.
    assert (Hs : In o (src r)) by (now apply (src_in P maps Hok)).
    eexists. split; [apply in_map_iff; exists o; split; [reflexivity|exact Hs]|]. apply in_map_iff. exists (k, j). split; [reflexivity|]. apply cross_in.
    split; [|exact Hj]. apply gpos_in; auto. eapply src_P; eauto.
Qed.
Lemma in_Lk r s k j : r < P -> In (s, k, j) (Lk r) <-> s < P /\ nth_error (im_owners (maps s)) k = Some r /\ j < bs.
Proof.
  intro Hr. unfold Lk. rewrite in_concat. split.
  - intros (l & Hl & H). apply in_map_iff in Hl as (o' & <- & Ho). apply in_map_iff in H as ([k' j'] & E & H).
    cbn in E. injection E as -> -> ->. pose proof (dest_P _ _ Hr Ho). apply cross_in in H as (H' & Hj).
    apply gpos_in in H'; auto.
  - intros (Hs & H & Hj). pose proof (nth_error_In _ _ H) as Hin.
    assert (Hd : In s (dest r)) by (apply (dest_in P maps Hok); auto).
    eexists. split; [apply in_map_iff; exists s; split; [reflexivity|exact Hd]|]. apply in_map_iff. exists (k, j). split; [reflexivity|]. apply cross_in.
    split; [|exact Hj]. now apply gpos_in.
Qed.
Lemma NoDup_Rk r : r < P -> NoDup (Rk r).
Proof.
  intro Hr. apply NoDup_concat.
  - apply SS_lt_NoDup, (mo_src _ _ Hok r Hr).
  - intros o _. apply NoDup_map_inj; [apply cross_NoDup, gpos_NoDup|]. intros [a b] [c d] _ _ E. cbn in E. congruence.
  - intros x y z _ _ Hx Hy. apply in_map_iff in Hx as (a & <- & _). apply in_map_iff in Hy as (b & E & _). congruence.
Qed.
Lemma NoDup_Lk r : r < P -> NoDup (Lk r).
Proof.
  intro Hr. apply NoDup_concat.
  - apply SS_lt_NoDup, (mo_dest _ _ Hok r Hr).
  - intros o _. apply NoDup_map_inj; [apply cross_NoDup, gpos_NoDup|]. intros [a b] [c d] _ _ E. cbn in E. congruence.
  - intros x y z _ _ Hx Hy. apply in_map_iff in Hx as (a & <- & _). apply in_map_iff in Hy as (b & E & _). congruence.
Qed.

(** Sizes as scaled in the constructor. *)
Definition nsz (q d : nat) : nat := length (gpos q d) * bs.

Lemma sc_make_ok r : r < P -> exists s, sc_make P maps bs r = Some s /\
  sc_remote_inds s = map rpos (Rk r) /\ sc_local_inds s = map (lpos r) (Lk r) /\
  sc_sizes_remote s = map (fun d => nsz r d) (src r) /\ sc_displs_remote s = psums (sc_sizes_remote s) /\
  sc_sizes_local s = map (fun q => nsz q r) (dest r) /\ sc_displs_local s = psums (sc_sizes_local s).
Proof.
  intro Hr. unfold sc_make. destruct (Nat.eqb_spec P 1) as [E|E].
  - assert (Es : src r = []).
    { destruct (src r) as [|s t] eqn:Es; [reflexivity|]. assert (Hs : In s (src r)) by (rewrite Es; now left).
      apply (src_in P maps Hok) in Hs; [|exact Hr]. destruct (owner_lt P maps Hok r s Hr Hs). lia. }
    assert (Ed : dest r = []).
    { destruct (dest r) as [|s t] eqn:Ed; [reflexivity|]. assert (Hs : In s (dest r)) by (rewrite Ed; now left).
      apply (dest_in P maps Hok) in Hs as (Hs & Hi); [|exact Hr]. destruct (owner_lt P maps Hok s r Hs Hi). lia. }
    unfold Rk, Lk. rewrite Es, Ed. eexists. split; [reflexivity|]. cbn. repeat split.
  - rewrite sc_send_ok by exact Hr. cbn [obind].
    rewrite (exchange_spec P _ _ _ GB r (src_dest_graph P maps Hok) Hr).
    2:{ intros s Hs. apply sc_send_ok. eapply dest_P; eauto. }
    cbn [obind].
    replace (forallb _ _) with true.
    2:{ symmetry. apply forallb_forall. intros g Hg. apply in_concat in Hg as (l & Hl & Hg).
        apply in_map_iff in Hl as (s & <- & Hs). apply in_map_iff in Hg as (k & <- & Hk).
        pose proof (gpos_owns s r k (dest_P _ _ Hr Hs) Hr Hk) as Ho. unfold owns in Ho.
        apply andb_true_iff. rewrite Nat.leb_le, Nat.ltb_lt. lia. }
    eexists. split; [reflexivity|]. cbn [sc_remote_inds sc_local_inds sc_sizes_remote sc_displs_remote sc_sizes_local sc_displs_local].
    assert (EG : forall q d, length (GB q d) * bs = nsz q d) by (intros; unfold GB, nsz; now rewrite map_length).
    rewrite !psums_scale, !map_map. split; [|split; [|split; [|split; [|split]]]].
    + rewrite perm_groups, expand_cross, cross_concat by exact Hr. unfold Rk. rewrite !concat_map, !map_map. f_equal.
      apply map_ext. intro d. rewrite map_map. reflexivity.
    + rewrite expand_cross, cross_concat. unfold Lk. rewrite !concat_map, !map_map. f_equal. apply map_ext_in. intros s Hs.
      unfold GB. rewrite cross_map, !map_map. apply map_ext_in. intros [k j] Hkj. apply cross_in in Hkj as (Hk & _).
      cbn [fst snd lpos]. pose proof (gpos_owns s r k (dest_P _ _ Hr Hs) Hr Hk) as Ho. unfold owns in Ho. nia.
    + apply map_ext. intro. apply EG.
    + reflexivity.
    + apply map_ext. intro. apply EG.
    + reflexivity.
Qed.

Section Data.
Variable T : Type.
Variable dflt : T.
Notation at_ x i := (nth i x dflt).
Variable x : nat -> list T.
Hypothesis Hx : forall r, r < P -> length (x r) = bs * (size_local (maps r) + num_ghosts (maps r)).

Definition lval (r : nat) (t : nat * nat * nat) : T := at_ (x r) (lpos r t).
Definition rval (r : nat) (t : nat * nat * nat) : T := at_ (x r) (bs * size_local (maps r) + rpos t).

Lemma lpos_lt r t : r < P -> In t (Lk r) -> lpos r t < bs * size_local (maps r).
Proof.
  intros Hr Ht. destruct t as [[s k] j]. apply in_Lk in Ht as (Hs & Ho & Hj); [|exact Hr].
  assert (Hk : In k (gpos s r)) by (now apply gpos_in).
  pose proof (gpos_owns s r k Hs Hr Hk) as Hw. unfold owns in Hw. cbn. unfold size_local. nia.
Qed.
Lemma rpos_lt r t : r < P -> In t (Rk r) -> rpos t < bs * num_ghosts (maps r).
Proof.
  intros Hr Ht. destruct t as [[o k] j]. apply in_Rk in Ht as (Ho & Hj); [|exact Hr].
  apply nth_error_bound in Ho. rewrite (mo_len _ _ Hok) in Ho by exact Hr. cbn. unfold num_ghosts. nia.
Qed.

(** Blocks of the forward and reverse messages. *)
Definition FB (o r : nat) : list T := map (fun kj => lval o (r, fst kj, snd kj)) (cross (gpos r o) bs).
Definition RB (s r : nat) : list T := map (fun kj => rval s (r, fst kj, snd kj)) (cross (gpos s r) bs).
Lemma FB_length o r : length (FB o r) = nsz r o.
Proof. unfold FB. now rewrite map_length, cross_length. Qed.
Lemma RB_length s r : length (RB s r) = nsz s r.
Proof. unfold RB. now rewrite map_length, cross_length. Qed.

Lemma local_packed q s : q < P -> sc_make P maps bs q = Some s ->
  pack_buf T (sc_local_inds s) (x q) = Some (concat (map (FB q) (dest q))).
Proof.
  intros Hq E. destruct (sc_make_ok q Hq) as (s' & E' & _ & Hl & _). rewrite E in E'. injection E' as <-.
  rewrite Hl. unfold pack_buf. rewrite omap_map with (g := fun i => at_ (x q) i).
  - f_equal. rewrite map_map. unfold Lk. rewrite concat_map, map_map. f_equal. apply map_ext. intro d.
    rewrite map_map. reflexivity.
  - intros i Hi. apply in_map_iff in Hi as (t & <- & Ht). apply nth_error_nth_some.
    pose proof (lpos_lt q t Hq Ht). rewrite Hx by exact Hq. nia.
Qed.
Lemma remote_packed q s : q < P -> sc_make P maps bs q = Some s ->
  pack_buf T (map (fun i => bs * size_local (maps q) + i) (sc_remote_inds s)) (x q) = Some (concat (map (RB q) (src q))).
Proof.
  intros Hq E. destruct (sc_make_ok q Hq) as (s' & E' & Hr & _). rewrite E in E'. injection E' as <-.
  rewrite Hr. unfold pack_buf. rewrite omap_map with (g := fun i => at_ (x q) i).
  - f_equal. rewrite !map_map. unfold Rk. rewrite concat_map, map_map. f_equal. apply map_ext. intro d.
    rewrite map_map. reflexivity.
  - intros i Hi. rewrite map_map in Hi. apply in_map_iff in Hi as (t & <- & Ht). apply nth_error_nth_some.
    pose proof (rpos_lt q t Hq Ht). rewrite Hx by exact Hq. nia.
Qed.

Lemma fwd_received r : r < P ->
  sc_fwd P maps T (sc_make P maps bs) (fun q => s <- sc_make P maps bs q;; pack_buf T (sc_local_inds s) (x q)) r
  = Some (concat (map (fun o => FB o r) (src r))).
Proof.
  intro Hr. unfold sc_fwd. destruct (sc_make_ok r Hr) as (s & E & _ & _ & Hsr & _ & Hsl & _). rewrite E. cbn [obind].
  assert (G : neigh_alltoallv P (fun q => im_src (maps q)) (fun q => im_dest (maps q))
     (fun q => b <- (s0 <- sc_make P maps bs q;; pack_buf T (sc_local_inds s0) (x q));;
               s0 <- sc_make P maps bs q;; Some (b, (sc_sizes_local s0, sc_displs_local s0)))
     (fun q => s0 <- sc_make P maps bs q;; Some (sc_sizes_remote s0)) r = Some (concat (map (fun o => FB o r) (src r)))).
  { apply (neigh_alltoallv_spec P _ _ _ _ FB r (graph_ok_sym _ _ _ (src_dest_graph P maps Hok)) Hr).
    - intros o Ho. assert (HoP := src_P r o Hr Ho).
      destruct (sc_make_ok o HoP) as (so & Eo & _ & _ & _ & _ & Hl & Hd). rewrite Eo. cbn [obind].
      rewrite (local_packed o so HoP Eo). cbn [obind]. rewrite Hd, Hl.
      rewrite (map_ext (fun d => length (FB o d)) (fun q => nsz q o)) by (intro; apply FB_length). reflexivity.
    - rewrite E. cbn [obind]. rewrite Hsr. f_equal. apply map_ext. intro. symmetry. apply FB_length. }
  destruct (sc_sizes_local s) eqn:E1, (sc_sizes_remote s) eqn:E2; try exact G.
  destruct (src r); [reflexivity|discriminate].
Qed.
Lemma rev_received r : r < P ->
  sc_rev P maps T (sc_make P maps bs) (fun q => s <- sc_make P maps bs q;;
      pack_buf T (map (fun i => bs * size_local (maps q) + i) (sc_remote_inds s)) (x q)) r
  = Some (concat (map (fun s => RB s r) (dest r))).
Proof.
  intro Hr. unfold sc_rev. destruct (sc_make_ok r Hr) as (s & E & _ & _ & Hsr & _ & Hsl & _). rewrite E. cbn [obind].
  assert (G : neigh_alltoallv P (fun q => im_dest (maps q)) (fun q => im_src (maps q))
     (fun q => b <- (s0 <- sc_make P maps bs q;; pack_buf T (map (fun i => bs * size_local (maps q) + i) (sc_remote_inds s0)) (x q));;
               s0 <- sc_make P maps bs q;; Some (b, (sc_sizes_remote s0, sc_displs_remote s0)))
     (fun q => s0 <- sc_make P maps bs q;; Some (sc_sizes_local s0)) r = Some (concat (map (fun s => RB s r) (dest r)))).
  { apply (neigh_alltoallv_spec P _ _ _ _ RB r (src_dest_graph P maps Hok) Hr).
    - intros o Ho. assert (HoP := dest_P r o Hr Ho).
      destruct (sc_make_ok o HoP) as (so & Eo & _ & _ & Hl & Hd & _). rewrite Eo. cbn [obind].
      rewrite (remote_packed o so HoP Eo). cbn [obind]. rewrite Hd, Hl.
      rewrite (map_ext (fun d => length (RB o d)) (fun q => nsz o q)) by (intro; apply RB_length). reflexivity.
    - rewrite E. cbn [obind]. rewrite Hsl. f_equal. apply map_ext. intro. symmetry. apply RB_length. }
  destruct (sc_sizes_local s) eqn:E1, (sc_sizes_remote s) eqn:E2; try exact G.
  destruct (dest r); [reflexivity|discriminate].
Qed.

Lemma scatter_fwd_ok r : r < P -> exists y, vec_scatter_fwd P maps bs T x r = Some y /\
  length y = length (x r) /\
  (forall i, i < bs * size_local (maps r) -> nth_error y i = nth_error (x r) i) /\
  (forall k g o j, nth_error (im_ghosts (maps r)) k = Some g -> nth_error (im_owners (maps r)) k = Some o -> j < bs ->
     nth_error y (bs * (size_local (maps r) + k) + j) = nth_error (x o) (bs * (g - lo o) + j)).
Proof.
  intro Hr. unfold vec_scatter_fwd. rewrite fwd_received by exact Hr.
  destruct (sc_make_ok r Hr) as (s & E & Hrem & _). rewrite E. cbn [obind]. rewrite Hrem.
  assert (Eb : concat (map (fun o => FB o r) (src r)) = map (fun t => lval (fst (fst t)) (r, snd (fst t), snd t)) (Rk r)).
  { unfold Rk, FB. rewrite concat_map, map_map. f_equal. apply map_ext. intro o. rewrite map_map. reflexivity. }
  rewrite Eb. unfold unpack_set.
  destruct (unpack_spec (fun _ v : T => v) (map rpos (Rk r)) (map (fun t => lval (fst (fst t)) (r, snd (fst t), snd t)) (Rk r))
     (bs * size_local (maps r)) (x r)) as (y & Ey & Hl & Hlow & Hhi).
  - now rewrite !map_length.
  - intros i Hi. apply in_map_iff in Hi as (t & <- & Ht). pose proof (rpos_lt r t Hr Ht). rewrite Hx by exact Hr. nia.
  - exists y. split; [exact Ey|]. split; [exact Hl|]. split; [exact Hlow|]. intros k g o j Hg Ho Hj.
    pose proof (nth_error_bound _ _ _ Hg) as Hk.
    replace (bs * (size_local (maps r) + k) + j) with (bs * size_local (maps r) + (k * bs + j)) by nia.
    rewrite Hhi, combine_map, vals_map_filter.
    rewrite (filter_single _ _ (o, k, j)).
    + cbn [map fst snd fold_left]. unfold lval, lpos. destruct (mo_owner _ _ Hok r k g o Hr Hg Ho) as (HoP & _ & Hw). unfold owns in Hw.
      destruct (nth_error_lt (x r) (bs * size_local (maps r) + (k * bs + j))) as (v & Ev).
      { rewrite Hx by exact Hr. unfold num_ghosts. nia. }
      rewrite Ev. cbn [option_map]. assert (Eg : gh r k = g) by (unfold gh; now apply nth_error_nth). rewrite Eg.
      symmetry. replace (bs * (g - lo o) + j) with ((g - lo o) * bs + j) by nia. apply nth_error_nth_some.
      rewrite Hx by exact HoP. unfold size_local. nia.
    + now apply NoDup_Rk.
    + apply in_Rk; auto.
    + cbn. apply Nat.eqb_refl.
    + intros [[o' k'] j'] Ht E'. apply in_Rk in Ht as (Ho' & Hj'); [|exact Hr]. cbn in E'. apply Nat.eqb_eq in E'.
      destruct (block_inj bs k' j' k j Hj' Hj E') as (-> & ->). congruence.
Qed.

(** Contribution of rank [q] to component [j] of global index [g]. *)
Definition contrib (g j q : nat) : list T :=
  match index_in g (im_ghosts (maps q)) with
  | Some k => [nth (bs * (size_local (maps q) + k) + j) (x q) dflt]
  | None => []
  end.

Lemma scatter_rev_ok op r : r < P -> exists y, vec_scatter_rev P maps bs T op x r = Some y /\
  length y = length (x r) /\
  (forall i j, i < size_local (maps r) -> j < bs ->
     nth_error y (bs * i + j)
     = option_map (fold_left op (concat (map (contrib (lo r + i) j) (seq 0 P)))) (nth_error (x r) (bs * i + j))) /\
  (forall i, bs * size_local (maps r) <= i -> nth_error y i = nth_error (x r) i).
Proof.
  intro Hr. unfold vec_scatter_rev. rewrite rev_received by exact Hr.
  destruct (sc_make_ok r Hr) as (s & E & _ & Hloc & _). rewrite E. cbn [obind]. rewrite Hloc.
  assert (Eb : concat (map (fun s => RB s r) (dest r)) = map (fun t => rval (fst (fst t)) (r, snd (fst t), snd t)) (Lk r)).
  { unfold Lk, RB. rewrite concat_map, map_map. f_equal. apply map_ext. intro o. rewrite map_map. reflexivity. }
  rewrite Eb.
  destruct (unpack_spec op (map (lpos r) (Lk r)) (map (fun t => rval (fst (fst t)) (r, snd (fst t), snd t)) (Lk r))
     0 (x r)) as (y & Ey & Hl & _ & Hhi).
  - now rewrite !map_length.
  - intros i Hi. apply in_map_iff in Hi as (t & <- & Ht). pose proof (lpos_lt r t Hr Ht). rewrite Hx by exact Hr. nia.
  - exists y. split; [exact Ey|]. split; [exact Hl|]. rewrite combine_map in Hhi. split.
    + intros i j Hi Hj. specialize (Hhi (bs * i + j)). cbn [plus] in Hhi. rewrite Hhi. clear Hhi.
      rewrite vals_map_filter. f_equal. cbn beta.
      replace (map (fun t => rval (fst (fst t)) (r, snd (fst t), snd t)) (filter (fun x0 => lpos r x0 =? bs * i + j) (Lk r)))
        with (concat (map (contrib (lo r + i) j) (seq 0 P))); [reflexivity|].
      unfold Lk. rewrite filter_concat, concat_map, !map_map.
      assert (C : forall q, q < P -> In q (dest r) ->
         map (fun t => rval (fst (fst t)) (r, snd (fst t), snd t))
           (filter (fun t => lpos r t =? bs * i + j) (map (fun kj => (q, fst kj, snd kj)) (cross (gpos q r) bs)))
         = contrib (lo r + i) j q).
      { intros q Hq Hd. unfold contrib.
        assert (Hw : owns (maps r) (lo r + i)) by (unfold owns; unfold size_local in Hi; lia).
        destruct (index_in (lo r + i) (im_ghosts (maps q))) as [k|] eqn:Ek.
        - apply index_in_some in Ek. pose proof (nth_error_bound _ _ _ Ek) as Hk.
          destruct (nth_error_lt (im_owners (maps q)) k) as (o & Ho); [rewrite (mo_len _ _ Hok) by exact Hq; exact Hk|].
          destruct (mo_owner _ _ Hok q k _ o Hq Ek Ho) as (HoP & _ & Hw').
          assert (o = r) by (eapply (owner_unique P maps Hok); eauto). subst o.
          assert (Eg : gh q k = lo r + i) by (unfold gh; now apply nth_error_nth).
          rewrite (filter_single _ _ (q, k, j)).
          + cbn [map fst snd]. unfold rval, rpos. do 2 f_equal. nia.
          + apply NoDup_map_inj; [apply cross_NoDup, gpos_NoDup|]. intros [a b] [c d] _ _ E'. cbn in E'. congruence.
          + apply in_map_iff. exists (k, j). split; [reflexivity|]. apply cross_in. split; [now apply gpos_in|exact Hj].
          + cbn [lpos]. apply Nat.eqb_eq. rewrite Eg. nia.
          + intros t Ht E'. apply in_map_iff in Ht as ([k' j'] & <- & Ht). apply cross_in in Ht as (Hk' & Hj').
            cbn [lpos fst snd] in *. apply Nat.eqb_eq in E'.
            pose proof (gpos_owns q r k' Hq Hr Hk') as Hwk. unfold owns in Hwk.
            destruct (block_inj bs (gh q k' - lo r) j' i j Hj' Hj) as (Ei & ->); [lia|].
            assert (gh q k' = lo r + i) by lia. f_equal. f_equal.
            eapply NoDup_nth_error_inj; [apply (mo_once _ _ Hok q Hq)|apply gh_nth, (gpos_lt _ _ _ Hk')|].
            rewrite H. exact Ek.
        - rewrite filter_none; [reflexivity|]. intros t Ht. apply in_map_iff in Ht as ([k' j'] & <- & Ht).
          apply cross_in in Ht as (Hk' & Hj'). cbn [lpos fst snd]. apply Nat.eqb_neq. intro E'.
          pose proof (gpos_owns q r k' Hq Hr Hk') as Hwk. unfold owns in Hwk.
          destruct (block_inj bs (gh q k' - lo r) j' i j Hj' Hj) as (Ei & _); [lia|].
          assert (Hin : In (lo r + i) (im_ghosts (maps q))).
          { apply nth_error_In with k'. rewrite (gh_nth q k') by (eapply gpos_lt; eauto). f_equal. lia. }
          destruct (index_in_in _ _ Hin). congruence. }
      assert (EQ : dest r = filter (fun q => mem q (dest r)) (seq 0 P)).
      { apply SS_lt_eq; [apply (mo_dest _ _ Hok r Hr)|apply SS_filter, SS_lt_seq|]. intro q.
        rewrite filter_In, in_seq, mem_iff. split; [|tauto]. intro Hq. pose proof (dest_P r q Hr Hq). split; [lia|exact Hq]. }
      assert (G : forall l, (forall q, In q l -> q < P) ->
        concat (map (contrib (lo r + i) j) l)
        = concat (map (fun q => map (fun t => rval (fst (fst t)) (r, snd (fst t), snd t))
           (filter (fun t => lpos r t =? bs * i + j) (map (fun kj => (q, fst kj, snd kj)) (cross (gpos q r) bs))))
             (filter (fun q => mem q (dest r)) l))).
      { induction l as [|q l IH]; intro Hl'; [reflexivity|]. cbn [map concat filter]. rewrite IH by (intros; apply Hl'; now right).
        assert (HqP : q < P) by (apply Hl'; now left).
        destruct (mem q (dest r)) eqn:Em.
        - cbn [map concat]. apply mem_iff in Em. rewrite C by assumption. reflexivity.
        - replace (contrib (lo r + i) j q) with (@nil T); [reflexivity|]. unfold contrib.
          destruct (index_in (lo r + i) (im_ghosts (maps q))) as [k|] eqn:Ek; [|reflexivity]. exfalso.
          apply index_in_some, nth_error_In in Ek. apply not_true_iff_false in Em. apply Em, mem_iff.
          apply (dest_iff P maps Hok); [exact Hr|]. split; [exact HqP|]. exists (lo r + i). split; [exact Ek|].
          unfold owns. unfold size_local in Hi. lia. }
      rewrite G by (intros q Hq; apply in_seq in Hq; lia). rewrite <- EQ. reflexivity.
    + intros i Hi. specialize (Hhi i). cbn [plus] in Hhi. rewrite Hhi, vals_map_filter, filter_none.
      * cbn. destruct (nth_error (x r) i); reflexivity.
      * intros t Ht. apply Nat.eqb_neq. pose proof (lpos_lt r t Hr Ht). lia.
Qed.
End Data.
End Proofs.
