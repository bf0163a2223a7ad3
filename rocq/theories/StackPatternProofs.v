(** Proofs about stacked patterns. *)
From Verif Require Import Base BaseProofs Algo AlgoProofs BucketProofs World IndexMap IndexMapSpec IndexMapProofs ImSharedProofs SubMap SubMapSpec StackProofs MatrixCSR MatrixProofs AsmVector Sparsity SparsitySpec SparsityProofs PackForm StackPattern StackPatternSpec.
Open Scope nat_scope.

Lemma ghost_offsets_psums gs : stack_ghost_offsets gs = psums (map (@length nat) gs).
Proof.
  unfold stack_ghost_offsets. induction gs as [|g gs IH] using rev_ind; [reflexivity|]. rewrite fold_left_app, map_app, IH. cbn [fold_left map]. rewrite psums_snoc. do 3 f_equal.
  induction (map (@length nat) gs) as [|d m _] using rev_ind; [reflexivity|]. rewrite psums_snoc, last_last, lsum_app, lsum_cons, lsum_nil. lia.
Qed.

Section Maps.
Variables (P : nat) (nbx : (nat -> list nat) -> nat -> list nat) (Ms : list (world * nat)).
Hypothesis (HP : 0 < P) (Hnbx : nbx_oracle P nbx) (Hne : Ms <> []) (Hok : forall mb, In mb Ms -> maps_ok P (fst mb)).

(** What the stacked data of a rank are *)
Definition data_ok (r : nat) (loff goff ghosts owners : list nat) : Prop :=
  last loff 0 = stack_local Ms r /\ length owners = length ghosts /\
  (forall m maps bs, nth_error Ms m = Some (maps, bs) -> exists go, nth_error loff m = Some (stack_local (firstn m Ms) r) /\ nth_error goff m = Some go /\
     forall j g o k, nth_error (im_ghosts (maps r)) j = Some g -> nth_error (im_owners (maps r)) j = Some o -> k < bs ->
       nth_error ghosts (go + (bs * j + k)) = Some (stacked Ms o m g k) /\ nth_error owners (go + (bs * j + k)) = Some o) /\
  (forall x G, nth_error ghosts x = Some G -> exists m maps bs go j g o k, nth_error Ms m = Some (maps, bs) /\ nth_error goff m = Some go /\
     nth_error (im_ghosts (maps r)) j = Some g /\ nth_error (im_owners (maps r)) j = Some o /\ k < bs /\ x = go + (bs * j + k) /\ G = stacked Ms o m g k /\ nth_error owners x = Some o).
Lemma data_of r : r < P -> exists loff goff ghosts owners, stack_data P Ms r = Some (loff, goff, ghosts, owners) /\ data_ok r loff goff ghosts owners.
Proof.
  intro Hr. destruct (stack_ok P Ms Hok r Hne Hr) as (loff & gs & os & E & Ll & Hl & Lg & Lo & H). unfold stack_data. rewrite E. cbn [obind]. do 4 eexists. split; [reflexivity|].
  assert (Len : map (@length nat) os = map (@length nat) gs).
  { apply nth_error_ext. intro m. rewrite !nth_error_map_some. destruct (nth_error Ms m) as [[maps bs]|] eqn:Em.
    - destruct (H m maps bs Em) as (gm & om & Ea & Eb & La & Lb & _). rewrite Ea, Eb. cbn [option_map]. congruence.
    - apply nth_error_None in Em. rewrite !(proj2 (nth_error_None _ m)) by lia. reflexivity. }
  rewrite ghost_offsets_psums. split; [|split; [|split]].
  - pose proof (Hl (length Ms) (Nat.le_refl _)) as H1. rewrite firstn_all in H1. clear -H1 Ll. destruct (exists_last (l := loff)) as (l & x & ->); [destruct loff; [discriminate|congruence]|]. rewrite last_last. rewrite app_length in Ll. cbn [length] in Ll. rewrite nth_error_app2 in H1 by lia. replace (length Ms - length l) with 0 in H1 by lia. now injection H1.
  - rewrite <- !lsum_concat_length. now rewrite Len.
  - intros m maps bs Em. destruct (H m maps bs Em) as (gm & om & Eg & Eo & L1 & L2 & HH). pose proof (nth_error_bound _ _ _ Em) as Hb. exists (lsum (firstn m (map (@length nat) gs))). split; [apply Hl; lia|]. split; [apply psums_nth; rewrite map_length; lia|].
    intros j g o k Hg Ho Hk. destruct (HH j g o k Hg Ho Hk) as (A & B). pose proof (nth_error_bound _ _ _ A). pose proof (nth_error_bound _ _ _ B). split.
    + rewrite (nth_error_concat gs m gm _ Eg) by assumption. exact A.
    + rewrite <- Len, (nth_error_concat os m om _ Eo) by assumption. exact B.
  - intros x G Hx. destruct (concat_index gs x) as (m & gm & b & Eg & Hb & Ex); [eapply nth_error_bound; eauto|].
    assert (Hm : m < length Ms) by (rewrite <- Lg; eapply nth_error_bound; eauto). destruct (nth_error_lt _ _ Hm) as ([maps bs] & Em). destruct (H m maps bs Em) as (gm' & om & Eg' & Eo & L1 & L2 & HH). rewrite Eg in Eg'. injection Eg' as <-.
    assert (N0 : bs <> 0) by (intro Z; subst bs; lia). pose proof (Nat.div_mod b bs N0) as Dm. pose proof (Nat.mod_upper_bound b bs N0) as Bm.
    assert (Hj : b / bs < num_ghosts (maps r)) by (apply Nat.div_lt_upper_bound; lia). unfold num_ghosts in Hj. destruct (nth_error_lt _ _ Hj) as (g & Hg).
    assert (Hin : In (maps, bs) Ms) by (eapply nth_error_In; eauto). pose proof (mo_len _ _ (Hok _ Hin) r Hr) as Lm. cbn [fst] in Lm. rewrite <- Lm in Hj. destruct (nth_error_lt _ _ Hj) as (o & Ho).
    destruct (HH _ g o (b mod bs) Hg Ho Bm) as (A & B). rewrite <- Dm in A, B. rewrite Ex in Hx. rewrite (nth_error_concat gs m gm _ Eg Hb), A in Hx.
    exists m, maps, bs, (lsum (firstn m (map (@length nat) gs))), (b / bs), g, o, (b mod bs). split; [exact Em|]. split; [apply psums_nth; rewrite map_length; lia|]. split; [exact Hg|]. split; [exact Ho|]. split; [exact Bm|]. split; [lia|]. split; [congruence|].
    rewrite Ex, <- Len. rewrite (nth_error_concat os m om _ Eo); [exact B|lia].
Qed.
Lemma ghost_entry r m maps bs j g o k : r < P -> nth_error Ms m = Some (maps, bs) -> nth_error (im_ghosts (maps r)) j = Some g -> nth_error (im_owners (maps r)) j = Some o -> k < bs ->
  o <> r /\ stack_entry P Ms o m g k.
Proof. intros Hr Em Hg Ho Hk. assert (Hin : In (maps, bs) Ms) by (eapply nth_error_In; eauto). destruct (mo_owner _ _ (Hok _ Hin) r j g o Hr Hg Ho) as (A & B & C). split; [exact B|]. exists maps, bs. auto. Qed.
Lemma stack_inputs ls gh ow : (forall q, q < P -> ls q = stack_local Ms q) -> (forall q, q < P -> exists loff goff, data_ok q loff goff (gh q) (ow q)) -> inputs_ok P ls gh ow.
Proof.
  intros Hls H r Hr. destruct (H r Hr) as (loff & goff & _ & Hlen & Hf & Hb). split; [exact Hlen|]. split.
  - apply NoDup_nth_error. intros x y Hx E. destruct (nth_error_lt _ _ Hx) as (G & EG). rewrite EG in E. symmetry in E.
    destruct (Hb x G EG) as (m & maps & bs & go & j & g & o & k & Em & Ego & Hg & Ho & Hk & Ex & EGs & _). destruct (Hb y G E) as (m' & maps' & bs' & go' & j' & g' & o' & k' & Em' & Ego' & Hg' & Ho' & Hk' & Ey & EGs' & _).
    destruct (ghost_entry r m maps bs j g o k Hr Em Hg Ho Hk) as (_ & SE). destruct (ghost_entry r m' maps' bs' j' g' o' k' Hr Em' Hg' Ho' Hk') as (_ & SE').
    destruct (stacked_inj P Ms o m g k o' m' g' k' SE SE') as (-> & -> & -> & ->); [congruence|]. rewrite Em in Em'. injection Em' as <- <-. rewrite Ego in Ego'. injection Ego' as <-.
    assert (Hin : In (maps, bs) Ms) by (eapply nth_error_In; eauto). pose proof (mo_once _ _ (Hok _ Hin) r Hr) as Hn. cbn [fst] in Hn.
    assert (j = j') by (apply (proj1 (NoDup_nth_error _) Hn); [eapply nth_error_bound; eauto|congruence]). subst j'. lia.
  - intros x G o0 EG Eo. destruct (Hb x G EG) as (m & maps & bs & go & j & g & o & k & Em & Ego & Hg & Ho & Hk & Ex & EGs & Eo'). rewrite Eo in Eo'. injection Eo' as ->.
    destruct (ghost_entry r m maps bs j g o k Hr Em Hg Ho Hk) as (N & SE). pose proof SE as (_ & _ & _ & HoP & _). split; [exact HoP|]. split; [exact N|].
    destruct (stacked_shape P Ms o m g k SE) as (mp2 & b2 & _ & _ & _ & _ & Es & _ & Hl).
    assert (Esum : forall n, n <= P -> lsum (map ls (seq 0 n)) = exscan (stack_local Ms) n).
    { intros n Hn. unfold exscan. f_equal. apply map_ext_in. intros q Hq. apply in_seq in Hq. apply Hls. lia. }
    rewrite !Esum by lia. pose proof (exscan_S (stack_local Ms) o) as HS. rewrite EGs, Es, HS. clear -Hl. set (z := b2 * _) in *. lia.
Qed.

(** Local indices of the stacked map *)
Lemma stack_map_ok : exists maps', maps_ok P maps' /\ forall r, r < P -> stack_map P nbx Ms r = Some (maps' r) /\ size_local (maps' r) = stack_local Ms r /\
  exists loff goff ghosts owners, stack_data P Ms r = Some (loff, goff, ghosts, owners) /\ last loff 0 = stack_local Ms r /\
    forall m maps bs, nth_error Ms m = Some (maps, bs) -> exists lo go, nth_error loff m = Some lo /\ nth_error goff m = Some go /\
      forall i g k, local_to_global (maps r) i = Some g -> k < bs -> exists o, stack_entry P Ms o m g k /\
        local_to_global (maps' r) (if i <? size_local (maps r) then bs * i + lo + k else stack_local Ms r + (bs * (i - size_local (maps r)) + go) + k) = Some (stacked Ms o m g k).
Proof.
  unfold stack_map.
  set (ls := fun q => match stack_data P Ms q with Some (loff, _, _, _) => last loff 0 | None => 0 end).
  set (gh := fun q => match stack_data P Ms q with Some (_, _, ghosts, _) => ghosts | None => [] end).
  set (ow := fun q => match stack_data P Ms q with Some (_, _, _, owners) => owners | None => [] end).
  assert (Hls : forall q, q < P -> ls q = stack_local Ms q).
  { intros q Hq. destruct (data_of q Hq) as (loff & goff & ghosts & owners & E & D & _). unfold ls. rewrite E. exact D. }
  assert (Hd : forall q, q < P -> exists loff goff, stack_data P Ms q = Some (loff, goff, gh q, ow q) /\ data_ok q loff goff (gh q) (ow q)).
  { intros q Hq. destruct (data_of q Hq) as (loff & goff & ghosts & owners & E & D). exists loff, goff. unfold gh, ow. rewrite E. auto. }
  destruct (maps_make_ok P nbx ls gh ow Hnbx HP) as (maps' & Hm' & H').
  { apply stack_inputs; [exact Hls|]. intros q Hq. destruct (Hd q Hq) as (loff & goff & _ & D). eauto. }
  exists maps'. split; [exact Hm'|]. intros r Hr. destruct (H' r Hr) as (E1 & Eg & Eo & Es & _). split; [exact E1|]. rewrite Es, (Hls r Hr). split; [reflexivity|].
  destruct (Hd r Hr) as (loff & goff & E & D1 & D2 & D3 & D4). exists loff, goff, (gh r), (ow r). split; [exact E|]. split; [exact D1|].
  intros m maps bs Em. destruct (D3 m maps bs Em) as (go & El & Ego & HG). exists (stack_local (firstn m Ms) r), go. split; [exact El|]. split; [exact Ego|].
  intros i g k Hl Hk. assert (Hin : In (maps, bs) Ms) by (eapply nth_error_In; eauto). pose proof (Hok _ Hin) as Hmo. cbn [fst] in Hmo.
  unfold local_to_global in Hl. destruct (Nat.ltb_spec i (size_local (maps r))) as [L|L].
  - injection Hl as <-. assert (Ow : owns (maps r) (im_lo (maps r) + i)) by (unfold owns, size_local in *; lia).
    assert (SE : stack_entry P Ms r m (im_lo (maps r) + i) k) by (exists maps, bs; auto). exists r. split; [exact SE|].
    destruct (stacked_shape P Ms r m _ k SE) as (maps2 & bs2 & Em2 & _ & _ & _ & Est & Hf & Hlt). rewrite Em in Em2. injection Em2 as <- <-.
    replace (im_lo (maps r) + i - im_lo (maps r)) with i in * by lia. rewrite <- stack_local_firstn in Est, Hlt by (apply Nat.lt_le_incl; eapply nth_error_bound; eauto).
    unfold local_to_global. rewrite Es, (Hls r Hr). replace (bs * i + stack_local (firstn m Ms) r + k <? stack_local Ms r) with true by (symmetry; apply Nat.ltb_lt; lia).
    f_equal. rewrite Est, (lo_is_sum P maps' Hm' r Hr). unfold exscan. replace (map (fun q => size_local (maps' q)) (seq 0 r)) with (map (stack_local Ms) (seq 0 r)); [lia|].
    apply map_ext_in. intros q Hq. apply in_seq in Hq. destruct (H' q) as (_ & _ & _ & Es' & _); [lia|]. rewrite Es'. symmetry. apply Hls. lia.
  - pose proof (nth_error_bound _ _ _ Hl) as Hb. rewrite <- (mo_len _ _ Hmo r Hr) in Hb. destruct (nth_error_lt _ _ Hb) as (o & Ho).
    destruct (ghost_entry r m maps bs _ g o k Hr Em Hl Ho Hk) as (_ & SE). exists o. split; [exact SE|]. destruct (HG _ g o k Hl Ho Hk) as (A & _).
    unfold local_to_global. rewrite Es, (Hls r Hr), Eg. set (z := bs * (i - size_local (maps r))) in *. clearbody z. destruct (Nat.ltb_spec (stack_local Ms r + (z + go) + k) (stack_local Ms r)) as [Q|Q]; [lia|]. rewrite <- A. f_equal. lia.
Qed.
End Maps.

(** * Blocks *)
Definition new_local (bs lo go owned total i : nat) : nat := if i <? owned then bs * i + lo else total + (bs * (i - owned) + go).
Lemma in_pairs b0 b1 r c R C : In (R, C) (stack_pairs b0 b1 r c) <-> exists k0 k1, k0 < b0 /\ k1 < b1 /\ R = r + k0 /\ C = c + k1.
Proof.
  unfold stack_pairs. rewrite in_concat. split.
  - intros (l & Hl & H). apply in_map_iff in Hl as (k0 & <- & H0). apply in_map_iff in H as (k1 & E & H1). injection E as <- <-. apply in_seq in H0, H1. exists k0, k1. repeat (split; [lia|]). lia.
  - intros (k0 & k1 & H0 & H1 & -> & ->). eexists. split; [apply in_map_iff; exists k0; split; [reflexivity|apply in_seq; lia]|]. apply in_map_iff. exists k1. split; [reflexivity|apply in_seq; lia].
Qed.
Lemma slice_bucket {A} (f : nat -> list A) n i : i < n -> slice_at (concat (map f (seq 0 n))) (psums (map (fun k => length (f k)) (seq 0 n))) i = Some (f i).
Proof. intro H. rewrite <- (map_map f (@length A)). apply slice_at_concat. rewrite nth_error_map_some, nth_error_seq by exact H. reflexivity. Qed.
Lemma col_ok b1 ncol loff1 goff1 col lo1 go1 c : nth_error loff1 col = Some lo1 -> nth_error goff1 col = Some go1 -> stack_col b1 ncol loff1 goff1 col c = Some (new_local b1 lo1 go1 ncol (last loff1 0) c).
Proof. intros E1 E2. unfold stack_col, new_local. rewrite E1, E2. cbn [obind]. destruct (c <? ncol); [reflexivity|]. f_equal. lia. Qed.

Lemma block_ok b0 b1 mr mc tot loff0 goff0 loff1 goff1 row col p lo0 go0 lo1 go1 :
  nth_error loff0 row = Some lo0 -> nth_error goff0 row = Some go0 -> nth_error loff1 col = Some lo1 -> nth_error goff1 col = Some go1 ->
  pt_final p = None -> (forall i c, In (i, c) (pt_cache p) -> i < size_local mr + num_ghosts mr) ->
  exists es, stack_block b0 b1 mr mc tot loff0 goff0 loff1 goff1 row col p = Some es /\
    forall R C, In (R, C) es <-> exists i c k0 k1, In (i, c) (pt_cache p) /\ k0 < b0 /\ k1 < b1 /\
      R = new_local b0 lo0 go0 (size_local mr) tot i + k0 /\ C = new_local b1 lo1 go1 (size_local mc) (last loff1 0) c + k1.
Proof.
  intros El0 Eg0 El1 Eg1 Hf Hb. unfold stack_block. rewrite Hf, bucket_spec by (intros [i c] He; exact (Hb i c He)). cbn [obind].
  set (V := fun k => vals k (pt_cache p)). set (nr := size_local mr) in *. set (ng := num_ghosts mr) in *. set (N := fun c => new_local b1 lo1 go1 (size_local mc) (last loff1 0) c).
  rewrite (omap_map _ (fun i => concat (map (fun c => stack_pairs b0 b1 (b0 * i + lo0) (N c)) (V i)))).
  2: { intros i Hi. apply in_seq in Hi. rewrite (slice_bucket V) by lia. cbn [obind]. rewrite (omap_map _ (fun c => stack_pairs b0 b1 (b0 * i + lo0) (N c))); [reflexivity|]. intros c _. rewrite El0, (col_ok _ _ _ _ _ lo1 go1) by assumption. reflexivity. }
  cbn [obind]. rewrite (omap_map _ (fun i => concat (map (fun c => stack_pairs b0 b1 (tot + (b0 * i + go0)) (N c)) (V (nr + i))))).
  2: { intros i Hi. apply in_seq in Hi. rewrite (slice_bucket V) by lia. cbn [obind]. rewrite (omap_map _ (fun c => stack_pairs b0 b1 (tot + (b0 * i + go0)) (N c))); [reflexivity|]. intros c _. rewrite Eg0, (col_ok _ _ _ _ _ lo1 go1) by assumption. reflexivity. }
  cbn [obind]. eexists. split; [reflexivity|]. intros R C. rewrite in_app_iff, !in_concat. split.
  - intros [(l & Hl & H)|(l & Hl & H)].
    + apply in_map_iff in Hl as (i & <- & Hi). apply in_seq in Hi. apply in_concat in H as (l & Hl & H). apply in_map_iff in Hl as (c & <- & Hc). unfold V in Hc. apply vals_in in Hc. apply in_pairs in H as (k0 & k1 & H0 & H1 & E0 & E1).
      exists i, c, k0, k1. split; [exact Hc|]. split; [exact H0|]. split; [exact H1|]. split; [|exact E1]. unfold new_local. replace (i <? nr) with true by (symmetry; apply Nat.ltb_lt; lia). exact E0.
    + apply in_map_iff in Hl as (i & <- & Hi). apply in_seq in Hi. apply in_concat in H as (l & Hl & H). apply in_map_iff in Hl as (c & <- & Hc). unfold V in Hc. apply vals_in in Hc. apply in_pairs in H as (k0 & k1 & H0 & H1 & E0 & E1).
      exists (nr + i), c, k0, k1. split; [exact Hc|]. split; [exact H0|]. split; [exact H1|]. split; [|exact E1]. unfold new_local. replace (nr + i <? nr) with false by (symmetry; apply Nat.ltb_ge; lia). replace (nr + i - nr) with i by lia. exact E0.
  - intros (i & c & k0 & k1 & Hc & H0 & H1 & ER & EC). pose proof (Hb i c Hc) as Hi. unfold new_local in ER. destruct (Nat.ltb_spec i nr) as [L|L]; [left|right].
    + eexists. split; [apply in_map_iff; exists i; split; [reflexivity|apply in_seq; lia]|]. apply in_concat. eexists. split; [apply in_map_iff; exists c; split; [reflexivity|now apply vals_in]|]. apply in_pairs. exists k0, k1. auto.
    + eexists. split; [apply in_map_iff; exists (i - nr); split; [reflexivity|apply in_seq; lia]|]. apply in_concat. eexists. split; [apply in_map_iff; exists c; split; [reflexivity|apply vals_in; replace (nr + (i - nr)) with i by lia; exact Hc]|]. apply in_pairs. exists k0, k1. auto.
Qed.

Lemma ofold_append {A B} (f : list B -> A -> option (list B)) (g : A -> list B) l acc : (forall acc a, In a l -> f acc a = Some (acc ++ g a)) -> ofold f l acc = Some (acc ++ concat (map g l)).
Proof.
  revert acc. induction l as [|a l IH]; intros acc H; cbn [ofold map concat]; [now rewrite app_nil_r|]. rewrite H by now left. cbn [obind]. rewrite IH by (intros; apply H; now right). now rewrite <- app_assoc.
Qed.

Section Stacked.
Variables (P : nat) (nbx : (nat -> list nat) -> nat -> list nat) (Ms0 Ms1 : list (world * nat)) (patterns : nat -> list (list (option pattern))).
Hypothesis (HP : 0 < P) (Hnbx : nbx_oracle P nbx).
Hypothesis (Hne0 : Ms0 <> []) (Hok0 : forall mb, In mb Ms0 -> maps_ok P (fst mb)).
Hypothesis (Hne1 : Ms1 <> []) (Hok1 : forall mb, In mb Ms1 -> maps_ok P (fst mb)).
Hypothesis (Hb : blocks_ok P Ms0 Ms1 patterns).

Lemma entry_unique (Ms : list (world * nat)) (Hok : forall mb, In mb Ms -> maps_ok P (fst mb)) o o' m g k k' : stack_entry P Ms o m g k -> stack_entry P Ms o' m g k' -> o = o'.
Proof.
  intros (maps & bs & Em & Ho & Hw & _) (maps' & bs' & Em' & Ho' & Hw' & _). rewrite Em in Em'. injection Em' as <- <-.
  assert (Hin : In (maps, bs) Ms) by (eapply nth_error_In; eauto). exact (owner_unique P maps (Hok _ Hin) o o' g Ho Ho' Hw Hw').
Qed.

Lemma rng (Ms : list (world * nat)) (Hok : forall mb, In mb Ms -> maps_ok P (fst mb)) m mp b r : r < P -> nth_error Ms m = Some (mp, b) -> im_lo (mp r) <= im_hi (mp r).
Proof. intros Hr Em. assert (Hin : In (mp, b) Ms) by (eapply nth_error_In; eauto). exact (mo_range _ _ (Hok _ Hin) r Hr). Qed.
Lemma stack_pattern_ok : exists maps0' maps1' pats,
  maps_ok P maps0' /\ maps_ok P maps1' /\
  (forall r, r < P -> stack_pattern P nbx Ms0 Ms1 (map snd Ms0) (map snd Ms1) patterns r = Some (pats r, maps0' r, maps1' r) /\
     size_local (maps0' r) = stack_local Ms0 r /\ size_local (maps1' r) = stack_local Ms1 r) /\
  patterns_ok P maps0' maps1' pats /\
  forall q G g, q < P -> inserted_on maps0' maps1' pats q G g <->
    exists m n G0 g0 k l, block_inserted Ms0 Ms1 patterns q m n G0 g0 /\ stacked_index P Ms0 m G0 k G /\ stacked_index P Ms1 n g0 l g.
Proof.
  destruct (stack_map_ok P nbx Ms0 HP Hnbx Hne0 Hok0) as (maps0' & HM0 & H0). destruct (stack_map_ok P nbx Ms1 HP Hnbx Hne1 Hok1) as (maps1' & HM1 & H1).
  set (pats := fun r => match stack_pattern P nbx Ms0 Ms1 (map snd Ms0) (map snd Ms1) patterns r with Some (p, _, _) => p | None => pt_empty end).
  exists maps0', maps1', pats. split; [exact HM0|]. split; [exact HM1|].
  assert (K : forall r, r < P -> exists cache, stack_pattern P nbx Ms0 Ms1 (map snd Ms0) (map snd Ms1) patterns r = Some (mkPat cache None, maps0' r, maps1' r) /\
    forall R C, In (R, C) cache <-> exists m n ps p mp0 b0 mp1 b1 i c k l G0 g0 G g o o',
      nth_error (patterns r) m = Some ps /\ nth_error ps n = Some (Some p) /\ nth_error Ms0 m = Some (mp0, b0) /\ nth_error Ms1 n = Some (mp1, b1) /\
      In (i, c) (pt_cache p) /\ local_to_global (mp0 r) i = Some G0 /\ local_to_global (mp1 r) c = Some g0 /\
      stack_entry P Ms0 o m G0 k /\ G = stacked Ms0 o m G0 k /\ stack_entry P Ms1 o' n g0 l /\ g = stacked Ms1 o' n g0 l /\
      local_to_global (maps0' r) R = Some G /\ local_to_global (maps1' r) C = Some g).
  { intros r Hr. destruct (H0 r Hr) as (EM0 & ES0 & loff0 & goff0 & gh0 & ow0 & ED0 & EL0 & D0). destruct (H1 r Hr) as (EM1 & ES1 & loff1 & goff1 & gh1 & ow1 & ED1 & EL1 & D1).
    unfold stack_pattern. rewrite ED0. cbn [obind]. rewrite ED1. cbn [obind]. rewrite EM0. cbn [obind]. rewrite EM1. cbn [obind].
    set (E := fun m n mp0 mp1 b0 b1 p => match stack_block b0 b1 (mp0 r) (mp1 r) (size_local (maps0' r)) loff0 goff0 loff1 goff1 m n p with Some es => es | None => [] end).
    set (blk := fun m (np : nat * option pattern) => match nth_error Ms0 m, nth_error Ms1 (fst np), snd np with Some (mp0, b0), Some (mp1, b1), Some p => E m (fst np) mp0 mp1 b0 b1 p | _, _, _ => [] end).
    assert (HE : forall m n ps p mp0 b0 mp1 b1, nth_error (patterns r) m = Some ps -> nth_error ps n = Some (Some p) -> nth_error Ms0 m = Some (mp0, b0) -> nth_error Ms1 n = Some (mp1, b1) ->
      stack_block b0 b1 (mp0 r) (mp1 r) (size_local (maps0' r)) loff0 goff0 loff1 goff1 m n p = Some (E m n mp0 mp1 b0 b1 p) /\
      forall R C, In (R, C) (E m n mp0 mp1 b0 b1 p) <-> exists i c k l G0 g0 o o', In (i, c) (pt_cache p) /\ local_to_global (mp0 r) i = Some G0 /\ local_to_global (mp1 r) c = Some g0 /\
        stack_entry P Ms0 o m G0 k /\ stack_entry P Ms1 o' n g0 l /\ local_to_global (maps0' r) R = Some (stacked Ms0 o m G0 k) /\ local_to_global (maps1' r) C = Some (stacked Ms1 o' n g0 l)).
    { intros m n ps p mp0 b0 mp1 b1 Eps Ep Em En. destruct (Hb r Hr m ps Eps) as (mp0' & b0' & Em' & Hb1). rewrite Em in Em'. injection Em' as <- <-. destruct (Hb1 n _ Ep) as (mp1' & b1' & En' & Hb2). rewrite En in En'. injection En' as <- <-. destruct (Hb2 p eq_refl) as (Hf & Hc).
      destruct (D0 m mp0 b0 Em) as (lo0 & go0 & A0 & B0 & L0). destruct (D1 n mp1 b1 En) as (lo1 & go1 & A1 & B1 & L1).
      destruct (block_ok b0 b1 (mp0 r) (mp1 r) (size_local (maps0' r)) loff0 goff0 loff1 goff1 m n p lo0 go0 lo1 go1 A0 B0 A1 B1 Hf) as (es & EB & HB); [intros i c Hin; destruct (Hc i c Hin); assumption|].
      unfold E. rewrite EB. split; [reflexivity|]. intros R C. rewrite HB. rewrite ES0, EL1.
      assert (N0 : forall i G0 k, local_to_global (mp0 r) i = Some G0 -> k < b0 -> exists o, stack_entry P Ms0 o m G0 k /\ local_to_global (maps0' r) (new_local b0 lo0 go0 (size_local (mp0 r)) (stack_local Ms0 r) i + k) = Some (stacked Ms0 o m G0 k)).
      { intros i G0 k Hi Hk. destruct (L0 i G0 k Hi Hk) as (o & SE & EE). exists o. split; [exact SE|]. rewrite <- EE. f_equal. unfold new_local. destruct (i <? _); reflexivity. }
      assert (N1 : forall c g0 l, local_to_global (mp1 r) c = Some g0 -> l < b1 -> exists o, stack_entry P Ms1 o n g0 l /\ local_to_global (maps1' r) (new_local b1 lo1 go1 (size_local (mp1 r)) (stack_local Ms1 r) c + l) = Some (stacked Ms1 o n g0 l)).
      { intros c g0 l Hi Hk. destruct (L1 c g0 l Hi Hk) as (o & SE & EE). exists o. split; [exact SE|]. rewrite <- EE. f_equal. unfold new_local. destruct (c <? _); reflexivity. }
      split.
      - intros (i & c & k & l & Hin & Hk & Hl & -> & ->). destruct (Hc i c Hin) as (Bi & Bc). destruct (proj2 (l2g_some (mp0 r) (rng Ms0 Hok0 m mp0 b0 r Hr Em) i) Bi) as (G0 & EG). destruct (proj2 (l2g_some (mp1 r) (rng Ms1 Hok1 n mp1 b1 r Hr En) c) Bc) as (g0 & Eg).
        destruct (N0 i G0 k EG Hk) as (o & SE & EE). destruct (N1 c g0 l Eg Hl) as (o' & SE' & EE'). exists i, c, k, l, G0, g0, o, o'. auto 10.
      - intros (i & c & k & l & G0 & g0 & o & o' & Hin & EG & Eg & SE & SE' & ER & EC). exists i, c, k, l. split; [exact Hin|].
        assert (Hk : k < b0) by (destruct SE as (x & y & Exy & _ & _ & Hk); rewrite Em in Exy; injection Exy as <- <-; exact Hk).
        assert (Hl : l < b1) by (destruct SE' as (x & y & Exy & _ & _ & Hk'); rewrite En in Exy; injection Exy as <- <-; exact Hk').
        split; [exact Hk|]. split; [exact Hl|]. destruct (N0 i G0 k EG Hk) as (o2 & SE2 & EE). destruct (N1 c g0 l Eg Hl) as (o2' & SE2' & EE').
        rewrite (entry_unique Ms0 Hok0 o o2 m G0 k k SE SE2) in ER. rewrite (entry_unique Ms1 Hok1 o' o2' n g0 l l SE' SE2') in EC.
        split; [eapply (l2g_inj P maps0' r); eauto|eapply (l2g_inj P maps1' r); eauto]. }
    rewrite (ofold_append _ (fun mps => concat (map (blk (fst mps)) (enum (snd mps))))).
    2: { intros acc [m ps] Hin. apply in_enum_nth in Hin. cbn [fst snd]. destruct (Hb r Hr m ps Hin) as (mp0 & b0 & Em & Hb1). rewrite Em. cbn [obind].
      apply ofold_append. intros acc' [n op] Hin'. apply in_enum_nth in Hin'. destruct (Hb1 n op Hin') as (mp1 & b1 & En & _). unfold blk. cbn [fst snd]. rewrite En, Em. cbn [obind]. destruct op as [p|]; [|now rewrite app_nil_r].
      rewrite !nth_error_map_some, Em, En. cbn [option_map obind snd fst]. destruct (HE m n ps p mp0 b0 mp1 b1 Hin Hin' Em En) as (EB & _). rewrite EB. reflexivity. }
    cbn [obind app]. eexists. split; [reflexivity|]. intros R C. rewrite in_concat. split.
    - intros (l0 & Hl & H). apply in_map_iff in Hl as ([m ps] & <- & Hin). apply in_enum_nth in Hin. cbn [fst snd] in H. apply in_concat in H as (l1 & Hl & H). apply in_map_iff in Hl as ([n op] & <- & Hin'). apply in_enum_nth in Hin'. unfold blk in H. cbn [fst snd] in H.
      destruct (nth_error Ms0 m) as [[mp0 b0]|] eqn:Em; [|destruct H]. destruct (nth_error Ms1 n) as [[mp1 b1]|] eqn:En; [|destruct H]. destruct op as [p|]; [|destruct H].
      destruct (HE m n ps p mp0 b0 mp1 b1 Hin Hin' Em En) as (_ & HB). apply HB in H as (i & c & k & l & G0 & g0 & o & o' & A1 & A2 & A3 & A4 & A5 & A6 & A7).
      exists m, n, ps, p, mp0, b0, mp1, b1, i, c, k, l, G0, g0. exists (stacked Ms0 o m G0 k), (stacked Ms1 o' n g0 l), o, o'. auto 20.
    - intros (m & n & ps & p & mp0 & b0 & mp1 & b1 & i & c & k & l & G0 & g0 & G & g & o & o' & Hin & Hin' & Em & En & A1 & A2 & A3 & A4 & -> & A5 & -> & A6 & A7).
      eexists. split; [apply in_map_iff; exists (m, ps); split; [reflexivity|apply in_enum; exact Hin]|]. cbn [fst snd]. apply in_concat. eexists. split; [apply in_map_iff; exists (n, Some p); split; [reflexivity|apply in_enum; exact Hin']|].
      unfold blk. cbn [fst snd]. rewrite Em, En. destruct (HE m n ps p mp0 b0 mp1 b1 Hin Hin' Em En) as (_ & HB). apply HB. exists i, c, k, l, G0, g0, o, o'. auto 20. }
  assert (Ecache : forall r cache m0 m1, stack_pattern P nbx Ms0 Ms1 (map snd Ms0) (map snd Ms1) patterns r = Some (mkPat cache None, m0, m1) -> pats r = mkPat cache None) by (intros r cache m0 m1 E; unfold pats; now rewrite E).
  split; [|split].
  - intros r Hr. destruct (K r Hr) as (cache & E & _). rewrite (Ecache r _ _ _ E). destruct (H0 r Hr) as (_ & ES0 & _). destruct (H1 r Hr) as (_ & ES1 & _). auto.
  - intros q Hq. destruct (K q Hq) as (cache & E & HC). rewrite (Ecache q _ _ _ E). cbn [pt_final pt_cache]. split; [reflexivity|]. intros R C Hin. apply HC in Hin as (m & n & ps & p & mp0 & b0 & mp1 & b1 & i & c & k & l & G0 & g0 & G & g & o & o' & _ & _ & _ & _ & _ & _ & _ & _ & _ & _ & _ & A & B).
    split; [apply (l2g_some _ (mo_range _ _ HM0 q Hq)); eauto|apply (l2g_some _ (mo_range _ _ HM1 q Hq)); eauto].
  - intros q G g Hq. destruct (K q Hq) as (cache & E & HC). unfold inserted_on. rewrite (Ecache q _ _ _ E). cbn [pt_cache]. split.
    + intros (R & C & Hin & ER & EC). apply HC in Hin as (m & n & ps & p & mp0 & b0 & mp1 & b1 & i & c & k & l & G0 & g0 & G' & g' & o & o' & Eps & Ep & Em & En & Hin & A2 & A3 & A4 & EG & A5 & Eg & A6 & A7).
      assert (G' = G) by congruence. assert (g' = g) by congruence. subst G' g'. exists m, n, G0, g0, k, l. split; [|split; [exists o; auto|exists o'; auto]]. exists mp0, b0, mp1, b1, ps, p, i, c. auto 10.
    + intros (m & n & G0 & g0 & k & l & (mp0 & b0 & mp1 & b1 & ps & p & i & c & Em & En & Eps & Ep & Hin & A2 & A3) & (o & SE & EG) & (o' & SE' & Eg)).
      destruct (H0 q Hq) as (_ & _ & loff0 & goff0 & _ & _ & _ & _ & D0). destruct (H1 q Hq) as (_ & _ & loff1 & goff1 & _ & _ & _ & _ & D1).
      destruct (D0 m mp0 b0 Em) as (lo0 & go0 & _ & _ & L0). destruct (D1 n mp1 b1 En) as (lo1 & go1 & _ & _ & L1).
      assert (Hk : k < b0) by (destruct SE as (x & y & Exy & _ & _ & Hk); rewrite Em in Exy; injection Exy as <- <-; exact Hk).
      assert (Hl : l < b1) by (destruct SE' as (x & y & Exy & _ & _ & Hk'); rewrite En in Exy; injection Exy as <- <-; exact Hk').
      destruct (L0 i G0 k A2 Hk) as (o2 & SE2 & EE). destruct (L1 c g0 l A3 Hl) as (o2' & SE2' & EE'). rewrite <- (entry_unique Ms0 Hok0 o o2 m G0 k k SE SE2) in EE. rewrite <- (entry_unique Ms1 Hok1 o' o2' n g0 l l SE' SE2') in EE'. rewrite <- EG in EE. rewrite <- Eg in EE'.
      eexists. eexists. split; [|split; [exact EE|exact EE']]. apply HC. exists m, n, ps, p, mp0, b0, mp1, b1, i, c, k, l, G0, g0, G, g, o, o'. auto 20.
Qed.
End Stacked.

Section Finalized.
Variables (P : nat) (nbx : (nat -> list nat) -> nat -> list nat) (Ms0 Ms1 : list (world * nat)) (patterns : nat -> list (list (option pattern))).
Hypothesis (HP : 0 < P) (Hnbx : nbx_oracle P nbx).
Hypothesis (Hne0 : Ms0 <> []) (Hok0 : forall mb, In mb Ms0 -> maps_ok P (fst mb)).
Hypothesis (Hne1 : Ms1 <> []) (Hok1 : forall mb, In mb Ms1 -> maps_ok P (fst mb)).
Hypothesis (Hb : blocks_ok P Ms0 Ms1 patterns).

Lemma index_inj (Ms : list (world * nat)) (Hok : forall mb, In mb Ms -> maps_ok P (fst mb)) m g k m' g' k' G : stacked_index P Ms m g k G -> stacked_index P Ms m' g' k' G -> m = m' /\ g = g' /\ k = k'.
Proof. intros (o & SE & E) (o' & SE' & E'). rewrite E in E'. destruct (stacked_inj P Ms _ _ _ _ _ _ _ _ SE SE' E') as (A & B & C & _). auto. Qed.

Lemma stack_finalized : exists maps0' maps1' pats newp newm,
  (forall r, r < P -> stack_pattern P nbx Ms0 Ms1 (map snd Ms0) (map snd Ms1) patterns r = Some (pats r, maps0' r, maps1' r) /\
     sp_finalize P nbx maps0' maps1' pats r = Some (newp r, newm r)) /\
  forall r, r < P -> exists f, pt_final (newp r) = Some f /\
    forall m G0 k i, i < stack_local Ms0 r -> stacked_index P Ms0 m G0 k (lsum (map (stack_local Ms0) (seq 0 r)) + i) ->
      exists row, slice_at (sp_edges f) (sp_offsets f) i = Some row /\ StronglySorted lt row /\
        (forall c, In c row -> exists n g0 l g q, local_to_global (newm r) c = Some g /\ stacked_index P Ms1 n g0 l g /\ q < P /\ block_inserted Ms0 Ms1 patterns q m n G0 g0) /\
        (forall n g0 l g q, stacked_index P Ms1 n g0 l g -> q < P -> block_inserted Ms0 Ms1 patterns q m n G0 g0 -> exists c, In c row /\ local_to_global (newm r) c = Some g).
Proof.
  destruct (stack_pattern_ok P nbx Ms0 Ms1 patterns HP Hnbx Hne0 Hok0 Hne1 Hok1 Hb) as (maps0' & maps1' & pats & HM0 & HM1 & HS & HPt & HI).
  destruct (finalize_ok P nbx maps0' maps1' pats HP Hnbx HM0 HM1 HPt) as (newp & newm & HF & HN & HR).
  exists maps0', maps1', pats, newp, newm. split; [intros r Hr; split; [exact (proj1 (HS r Hr))|exact (HF r Hr)]|]. intros r Hr.
  destruct (HR r Hr) as (_ & _ & _ & f & Ef & _ & _ & _ & _ & _ & HA & HB). exists f. split; [exact Ef|]. intros m G0 k i Hi SI. destruct (HS r Hr) as (_ & ES0 & _).
  assert (EL : im_lo (maps0' r) = lsum (map (stack_local Ms0) (seq 0 r))).
  { rewrite (lo_is_sum P maps0' HM0 r Hr). f_equal. apply map_ext_in. intros q Hq. apply in_seq in Hq. apply HS. lia. }
  destruct (HA i ltac:(lia)) as (row & d & Erow & Hs & Hrow & _). exists row. split; [exact Erow|]. split; [exact Hs|].
  assert (Li : (i <? size_local (maps0' r)) = true) by (apply Nat.ltb_lt; lia). rewrite Li in Hrow. split.
  - intros c Hc. apply Hrow in Hc as (g & q & Eg & Hq & Hins). apply HI in Hins as (m' & n & G0' & g0 & k' & l & Hbi & SI' & SJ); [|exact Hq]. rewrite EL in SI'.
    destruct (index_inj Ms0 Hok0 _ _ _ _ _ _ _ SI SI') as (<- & <- & <-). exists n, g0, l, g, q. auto.
  - intros n g0 l g q SJ Hq Hbi. assert (Hins : inserted_on maps0' maps1' pats q (im_lo (maps0' r) + i) g) by (apply HI; [exact Hq|]; rewrite EL; exists m, n, G0, g0, k, l; auto).
    destruct (HB i g q ltac:(lia) Hq Hins) as (c & Ec). exists c. split; [apply Hrow; exists g, q; auto|exact Ec].
Qed.
End Finalized.

Lemma stack_final_fails P nbx Ms0 Ms1 bs0 bs1 patterns r m n ps p f : nth_error (patterns r) m = Some ps -> nth_error ps n = Some (Some p) -> pt_final p = Some f ->
  stack_pattern P nbx Ms0 Ms1 bs0 bs1 patterns r = None.
Proof.
  intros Em En Ef. unfold stack_pattern. destruct (stack_data P Ms0 r) as [[[[? ?] ?] ?]|]; [|reflexivity]. destruct (stack_data P Ms1 r) as [[[[? ?] ?] ?]|]; [|reflexivity]. cbn [obind].
  destruct (stack_map P nbx Ms0 r); [|reflexivity]. destruct (stack_map P nbx Ms1 r); [|reflexivity]. cbn [obind].
  rewrite (ofold_fail _ (enum (patterns r)) (m, ps)); [reflexivity|now apply in_enum|]. intro s. destruct (nth_error Ms0 m); [|reflexivity]. cbn [obind].
  rewrite (ofold_fail _ (enum ps) (n, Some p)); [reflexivity|now apply in_enum|]. intro s'. destruct (nth_error Ms1 n); [|reflexivity]. cbn [obind].
  destruct (nth_error bs0 m); [|reflexivity]. destruct (nth_error bs1 n); [|reflexivity]. cbn [obind]. unfold stack_block. now rewrite Ef.
Qed.
