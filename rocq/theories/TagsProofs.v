(** Proofs about entity maps and mesh tags. *)
From Verif Require Import Base BaseProofs Algo AlgoProofs Sort SortSpec SortProofs Tags.
Open Scope nat_scope.

Lemma table_spec m e i : option_map snd (find (fun x => fst x =? e) (em_table m)) = Some i <-> nth_error m i = Some e /\ forall j, j < i -> nth_error m j <> Some e.
Proof.
  assert (E : option_map snd (find (fun x => fst x =? e) (em_table m)) = index_in e m).
  { unfold em_table.
    enough (G : forall s t, option_map snd (find (fun x => fst x =? e) (fold_left map_insert (combine m (seq s (length m))) t)) =
      match option_map snd (find (fun x => fst x =? e) t) with Some i => Some i | None => option_map (Nat.add s) (index_in e m) end).
    { rewrite (G 0 []). cbn [find option_map]. destruct (index_in e m); reflexivity. }
    induction m as [|y m IH]; intros s t; cbn [length seq combine fold_left index_in].
    - cbn [option_map]. destruct (option_map snd (find (fun x : nat * nat => fst x =? e) t)); reflexivity.
    - rewrite IH. unfold map_insert. cbn [fst]. destruct (existsb (fun x => fst x =? y) t) eqn:Ex.
      + destruct (find (fun x => fst x =? e) t) as [kv|] eqn:Ef; cbn [option_map]; [reflexivity|].
        destruct (Nat.eqb_spec e y) as [->|N]; [|destruct (index_in e m); cbn [obind option_map]; [f_equal; lia|reflexivity]].
        apply existsb_exists in Ex as (kv & Hin & Hk). now rewrite (find_none _ _ Ef kv Hin) in Hk.
      + cbn [find fst]. rewrite (Nat.eqb_sym e y). destruct (Nat.eqb_spec y e) as [->|N].
        * cbn [option_map snd]. destruct (find (fun x => fst x =? e) t) as [kv|] eqn:Ef; cbn [option_map].
          -- apply find_some in Ef as (Hin & Hk). assert (existsb (fun x => fst x =? e) t = true) by (apply existsb_exists; eauto). congruence.
          -- now rewrite Nat.add_0_r.
        * destruct (find (fun x => fst x =? e) t) as [kv|]; cbn [option_map]; [reflexivity|]. destruct (index_in e m); cbn [obind option_map]; [f_equal; lia|reflexivity]. }
  rewrite E. clear E. revert i. induction m as [|y m IH]; intro i; cbn [index_in]; [split; [discriminate|intros (H & _); destruct i; discriminate]|].
  destruct (Nat.eqb_spec e y) as [->|N].
  - split; [intro H; injection H as <-; split; [reflexivity|lia]|]. intros (H1 & H2). destruct i; [reflexivity|]. exfalso. apply (H2 0); [lia|reflexivity].
  - destruct i as [|i]; cbn [nth_error].
    + split; [destruct (index_in e m); discriminate|]. intros (H & _). congruence.
    + split.
      * destruct (index_in e m) as [k|] eqn:Ek; [|discriminate]. cbn [obind]. intro H. injection H as ->. destruct (proj1 (IH i) eq_refl) as (H1 & H2). split; [exact H1|]. intros [|j] Hj; cbn [nth_error]; [congruence|]. apply H2. lia.
      * intros (H1 & H2). rewrite (proj2 (IH i)); [reflexivity|]. split; [exact H1|]. intros j Hj. apply (H2 (S j)). lia.
Qed.
Lemma table_none m e : option_map snd (find (fun x => fst x =? e) (em_table m)) = None <-> ~ In e m.
Proof.
  split.
  - intros H Hin. apply index_in_in in Hin as (i & Hi).
    assert (exists i, nth_error m i = Some e /\ forall j, j < i -> nth_error m j <> Some e) as (k & Hk).
    { clear H. revert i Hi. induction m as [|y m IH]; intros i Hi; [discriminate|]. destruct (Nat.eq_dec y e) as [->|N]; [exists 0; split; [reflexivity|lia]|].
      cbn [index_in] in Hi. destruct (Nat.eqb_spec e y); [congruence|]. destruct (index_in e m) as [k|]; [|discriminate]. destruct (IH k eq_refl) as (k' & H1 & H2). exists (S k'). split; [exact H1|]. intros [|j] Hj; cbn [nth_error]; [congruence|]. apply H2. lia. }
    apply table_spec in Hk. congruence.
  - intro N. destruct (option_map snd _) as [i|] eqn:E; [|reflexivity]. apply table_spec in E as (E & _). apply nth_error_In in E. contradiction.
Qed.

Lemma em_all n m m' : em_make (Some n) m = Some m' -> NoDup m -> m' = m /\ n = length m /\
  (forall es, Forall (fun i => i < n) es -> exists ps, em_forward m' es = Some ps /\ em_inverse m' ps = map Some es /\ Forall2 (fun i p => nth_error m i = Some p) es ps) /\
  (forall ps, Forall2 (fun p o => match o with Some i => nth_error m i = Some p /\ em_forward m' [i] = Some [p] | None => ~ In p m end) ps (em_inverse m' ps)).
Proof.
  unfold em_make. cbn [obind]. intros E Hnd. destruct (Nat.eqb_spec n (length m)) as [En|]; [|discriminate]. injection E as <-. do 2 (split; [auto|]).
  split.
  - induction es as [|i es IH]; intro Hes; [exists []; repeat split; constructor|]. inversion Hes as [|? ? Hi Hes']; subst. destruct (IH Hes') as (ps & E1 & E2 & E3). destruct (nth_error_lt m i Hi) as (p & Ep). exists (p :: ps).
    unfold em_forward in *. cbn [omap]. rewrite Ep. cbn [obind]. rewrite E1. split; [reflexivity|]. unfold em_inverse in *. cbn [map]. rewrite E2. split; [|now constructor]. f_equal.
    apply table_spec. split; [exact Ep|]. intros j Hj Ej. rewrite NoDup_nth_error in Hnd. assert (j = i) by (apply Hnd; [lia|congruence]). lia.
  - induction ps as [|p ps IH]; [constructor|]. unfold em_inverse in *. cbn [map]. constructor; [|exact IH].
    destruct (option_map snd _) as [i|] eqn:E.
    + apply table_spec in E as (E & _). split; [exact E|]. unfold em_forward. cbn [omap]. now rewrite E.
    + now apply table_none in E.
Qed.

Lemma combine_nths {X Y} (a : list X) (b : list Y) dx dy : length a = length b -> map (fun i => (nth i a dx, nth i b dy)) (seq 0 (length b)) = combine a b.
Proof.
  revert b. induction a as [|x a IH]; intros [|y b] H; try discriminate; [reflexivity|]. cbn [length seq map combine nth]. f_equal. rewrite <- seq_shift, map_map. apply IH. cbn in H. lia.
Qed.
Lemma find_ok is vs v : length is = length vs -> tags_find (is, vs) v = Some (map fst (filter (fun iv => (snd iv =? v)%Z) (combine is vs))).
Proof.
  intro Hl. unfold tags_find. cbn [fst snd].
  destruct (ofold_prefix_ind (fun found i => v0 <- nth_error vs i ;; if (v0 =? v)%Z then k <- nth_error is i ;; Some (found ++ [k]) else Some found)
    (fun p acc => acc = map fst (filter (fun iv => (snd iv =? v)%Z) (map (fun i => (nth i is 0%Z, nth i vs 0%Z)) p))) (seq 0 (length vs)) []) as (acc & E & ->).
  - reflexivity.
  - intros p i q acc Eq ->. assert (Hi : i < length vs) by (assert (H : In i (seq 0 (length vs))) by (rewrite Eq; apply in_or_app; right; now left); apply in_seq in H; lia).
    rewrite (nth_error_nth' vs 0%Z Hi), (nth_error_nth' is 0%Z) by lia. cbn [obind]. rewrite map_app, filter_app, map_app. cbn [map filter snd]. destruct (nth i vs 0 =? v)%Z; eexists; (split; [reflexivity|]); [reflexivity|now rewrite app_nil_r].
  - rewrite E. now rewrite combine_nths.
Qed.
Lemma combine_in_nth {X Y} (a : list X) (b : list Y) x y : In (x, y) (combine a b) <-> exists k, nth_error a k = Some x /\ nth_error b k = Some y.
Proof.
  revert b. induction a as [|u a IH]; intros [|w b]; cbn [combine In].
  - split; [easy|intros ([|k] & H & _); discriminate].
  - split; [easy|intros ([|k] & H & _); discriminate].
  - split; [easy|intros ([|k] & _ & H); discriminate].
  - rewrite IH. split.
    + intros [E|(k & E1 & E2)]; [injection E as -> ->; now exists 0|now exists (S k)].
    + intros ([|k] & E1 & E2); cbn in E1, E2; [left; congruence|right; eauto].
Qed.
Lemma find_all is vs v t : tags_make is vs = Some t -> exists l, tags_find t v = Some l /\
  (forall i, In i l <-> exists k, nth_error is k = Some i /\ nth_error vs k = Some v) /\ (StronglySorted Z.lt is -> StronglySorted Z.lt l).
Proof.
  unfold tags_make. destruct (Nat.eqb_spec (length is) (length vs)) as [Hl|]; [|discriminate]. intro E. injection E as <-. eexists. split; [apply find_ok, Hl|]. split.
  - intro i. rewrite in_map_iff. split.
    + intros ((i' & v') & <- & H). apply filter_In in H as (H & Hv). apply Z.eqb_eq in Hv. cbn in Hv. subst v'. now apply combine_in_nth.
    + intros H. apply combine_in_nth in H. exists (i, v). split; [reflexivity|]. apply filter_In. split; [exact H|]. apply Z.eqb_refl.
  - clear Hl. revert vs. induction is as [|i is IH]; intros [|w vs] Hs; try constructor. inversion Hs as [|? ? Hs' Hf]; subst. cbn [combine filter snd]. destruct (w =? v)%Z; cbn [map fst]; [|now apply IH].
    constructor; [now apply IH|]. apply Forall_forall. intros x Hx. apply in_map_iff in Hx as ((i' & v') & <- & H). apply filter_In in H as (H & _). rewrite Forall_forall in Hf. apply Hf. now apply in_combine_l in H.
Qed.

Lemma list_eqb_iff a b : list_eqb a b = true <-> a = b.
Proof.
  revert b. induction a as [|x a IH]; intros [|y b]; cbn [list_eqb]; try (split; [discriminate|congruence]); [tauto|]. rewrite andb_true_iff, Nat.eqb_eq, IH. split; [intros (-> & ->); reflexivity|intro E; injection E; auto].
Qed.
Lemma sort_eq_perm a b : isort Nat.leb a = isort Nat.leb b <-> Permutation a b.
Proof.
  split; [|apply nsort_perm_eq]. intro E. rewrite (isort_perm _ Nat.leb a), (isort_perm _ Nat.leb b). now rewrite E.
Qed.

Section Create.
Variables (e2v : list (list nat)) (nv : nat).
Hypothesis Hnv : 0 < nv.
Hypothesis Hlen : Forall (fun v => length v = nv) e2v.

Definition distinct := forall i j vi vj, nth_error e2v i = Some vi -> nth_error e2v j = Some vj -> Permutation vi vj -> i = j.

Lemma keys_ok : distinct -> exists t, build_keys e2v nv = Some t /\ forall k e, In (k, e) t <-> exists v, nth_error e2v e = Some v /\ k = isort Nat.leb v.
Proof.
  intro Hd. unfold build_keys.
  destruct (ofold_prefix_ind (fun t e => v <- nth_error e2v e ;; if length v =? nv then let key := isort Nat.leb v in if existsb (fun x => list_eqb (fst x) key) t then None else Some ((key, e) :: t) else None)
    (fun p t => forall k e, In (k, e) t <-> In e p /\ exists v, nth_error e2v e = Some v /\ k = isort Nat.leb v) (seq 0 (length e2v)) []) as (t & E & Ht).
  - intros k e. split; [easy|intros ([] & _)].
  - intros p e q t Eq Ht. assert (Hnd : NoDup (p ++ e :: q)) by (rewrite <- Eq; apply seq_NoDup). apply NoDup_remove_2 in Hnd. assert (Hi : e < length e2v) by (assert (H : In e (seq 0 (length e2v))) by (rewrite Eq; apply in_or_app; right; now left); apply in_seq in H; lia).
    destruct (nth_error_lt e2v e Hi) as (v & Ev). rewrite Ev. cbn [obind]. rewrite Forall_forall in Hlen. rewrite (Hlen v (nth_error_In _ _ Ev)), Nat.eqb_refl. cbn zeta.
    destruct (existsb (fun x => list_eqb (fst x) (isort Nat.leb v)) t) eqn:Ex.
    + exfalso. apply existsb_exists in Ex as ((k & e') & Hin & Hk). apply list_eqb_iff in Hk. cbn in Hk. apply Ht in Hin as (He' & v' & Ev' & Ek). apply Hnd, in_or_app. left. assert (e' = e) as <-; [|exact He']. apply (Hd e' e v' v Ev' Ev), sort_eq_perm. congruence.
    + eexists. split; [reflexivity|]. intros k e'. cbn [In]. rewrite in_app_iff, Ht. cbn [In]. split.
      * intros [E0|(H1 & H2)]; [injection E0 as <- <-; split; [auto|eauto]|split; auto].
      * intros ([H1|[->|[]]] & v' & Ev' & ->); [right; split; [exact H1|eauto]|left; congruence].
  - exists t. split; [exact E|]. intros k e. rewrite Ht. split; [tauto|]. intros (v & Ev & ->). split; [|eauto]. apply in_seq. split; [lia|]. cbn. apply nth_error_Some. congruence.
Qed.

Definition index_of (row : list nat) (z : Z) : Prop :=
  (exists e v, z = Z.of_nat e /\ nth_error e2v e = Some v /\ Permutation row v) \/ (z = (-1)%Z /\ forall e v, nth_error e2v e = Some v -> ~ Permutation row v).

Lemma slice_rows (rows : list (list nat)) i : Forall (fun v => length v = nv) rows -> forall row, nth_error rows i = Some row -> slice (concat rows) (i * nv) (i * nv + nv) = Some row.
Proof.
  revert i. induction rows as [|r rows IH]; intros i Hr row E; [destruct i; discriminate|]. inversion Hr as [|? ? Hl Hr']; subst. cbn [concat]. unfold slice in *. destruct i as [|i]; cbn [nth_error] in E.
  - injection E as ->. rewrite app_length. cbn [Nat.mul Nat.add]. rewrite (proj2 (Nat.leb_le 0 _)) by lia. rewrite (proj2 (Nat.leb_le _ _)) by lia. cbn [andb skipn]. rewrite Nat.sub_0_r. now rewrite firstn_app, Nat.sub_diag, firstn_all, firstn_O, app_nil_r.
  - specialize (IH i Hr' row E). rewrite app_length. destruct ((i * length r <=? i * length r + length r) && (i * length r + length r <=? length (concat rows))) eqn:C; [|discriminate]. apply andb_prop in C as (C1 & C2). apply Nat.leb_le in C1, C2.
    rewrite (proj2 (Nat.leb_le _ _)) by lia. rewrite (proj2 (Nat.leb_le _ _)) by (cbn; lia). cbn [andb]. rewrite <- IH. f_equal. f_equal; [cbn; lia|].
    replace (S i * length r) with (length r + i * length r) by (cbn; lia). now rewrite skipn_app, skipn_all2, Nat.add_comm, Nat.add_sub by lia.
Qed.
Lemma concat_len rows : Forall (fun v : list nat => length v = nv) rows -> length (concat rows) = length rows * nv.
Proof. induction 1 as [|r rows Hr H IH]; [reflexivity|]. cbn [concat length]. rewrite app_length, IH, Hr. cbn. lia. Qed.

Lemma index_ok rows : distinct -> Forall (fun v => length v = nv) rows -> exists idx, entities_to_index e2v nv (concat rows) = Some idx /\ Forall2 index_of rows idx.
Proof.
  intros Hd Hr. destruct (keys_ok Hd) as (t & Et & Ht). unfold entities_to_index. rewrite Et. cbn [obind]. rewrite (concat_len rows Hr).
  replace ((length rows * nv + nv - 1) / nv) with (length rows) by (replace (length rows * nv + nv - 1) with ((nv - 1) + length rows * nv) by lia; rewrite Nat.div_add, Nat.div_small; lia).
  set (F := fun row => match find (fun x : list nat * nat => list_eqb (fst x) (isort Nat.leb row)) t with Some (_, e) => Z.of_nat e | None => (-1)%Z end).
  assert (HF : forall row, index_of row (F row)).
  { intro row. unfold F. destruct (find _ t) as [(k & e)|] eqn:Ef.
    - apply find_some in Ef as (Hin & Hk). apply list_eqb_iff in Hk. cbn in Hk. subst k. apply Ht in Hin as (v & Ev & Es). left. exists e, v. split; [reflexivity|]. split; [exact Ev|]. now apply sort_eq_perm.
    - right. split; [reflexivity|]. intros e v Ev Hp. assert (Hin : In (isort Nat.leb v, e) t) by (apply Ht; eauto). pose proof (find_none _ _ Ef _ Hin) as Hn. cbn [fst] in Hn. apply sort_eq_perm in Hp. rewrite Hp in Hn. rewrite (proj2 (list_eqb_iff _ _) eq_refl) in Hn. discriminate. }
  exists (map F rows). split; [|clear -HF; induction rows; constructor; auto].
  assert (G : omap (fun i => v <- slice (concat rows) (i * nv) (i * nv + nv) ;; Some (F v)) (seq 0 (length rows)) = Some (map F rows)); [|exact G].
  rewrite (omap_ext _ (fun i => option_map F (nth_error rows i))).
  - clearbody F. clear.
    enough (G : forall pre, omap (fun i => option_map F (nth_error (pre ++ rows) i)) (seq (length pre) (length rows)) = Some (map F rows)) by apply (G []).
    induction rows as [|r rows IH]; intro pre; [reflexivity|]. cbn [length seq omap map]. rewrite nth_error_app2, Nat.sub_diag by lia. cbn [nth_error option_map obind].
    specialize (IH (pre ++ [r])). rewrite <- app_assoc, app_length, Nat.add_1_r in IH. cbn [app] in IH. now rewrite IH.
  - intros i Hi. apply in_seq in Hi. destruct (nth_error_lt rows i ltac:(lia)) as (row & Er). rewrite (slice_rows rows i Hr row Er), Er. reflexivity.
Qed.
End Create.

Section Make.
Variable srt : list (Z * Z) -> list (Z * Z).
Hypothesis Hsrt : forall l, Permutation l (srt l) /\ StronglySorted pair_le (srt l).

Lemma drop_neg is (vs : list Z) : StronglySorted Z.lt is -> length is = length vs -> let n := prefix_len (fun i => (i <? 0)%Z) is in
  length (skipn n is) = length (skipn n vs) /\ StronglySorted Z.lt (skipn n is) /\ forall i v, In (i, v) (combine (skipn n is) (skipn n vs)) <-> (0 <= i)%Z /\ In (i, v) (combine is vs).
Proof.
  revert vs. induction is as [|i is IH]; intros [|v vs] Hs Hl; try discriminate; cbn zeta; cbn [prefix_len].
  - cbn. repeat split; try constructor; tauto.
  - inversion Hs as [|? ? Hs' Hf]; subst. destruct (Z.ltb_spec i 0) as [Hi|Hi]; cbn [skipn].
    + destruct (IH vs Hs' ltac:(cbn in Hl; lia)) as (H1 & H2 & H3). split; [exact H1|]. split; [exact H2|]. intros j w. rewrite H3. cbn [combine In]. split; [tauto|]. intros (Hj & [E|H]); [injection E as -> ->; lia|auto].
    + split; [exact Hl|]. split; [exact Hs|]. intros j w. split; [|tauto]. intro H. split; [|exact H]. destruct H as [E|H]; [congruence|]. apply in_combine_l in H. rewrite Forall_forall in Hf. specialize (Hf j H). lia.
Qed.

Lemma create_ok e2v nv rows values : 0 < nv -> Forall (fun v => length v = nv) e2v -> distinct e2v -> Forall (fun v => length v = nv) rows -> length rows = length values ->
  exists is vs, create_meshtags srt e2v nv (concat rows) values = Some (is, vs) /\ length is = length vs /\ StronglySorted Z.lt is /\
    (forall e, In (Z.of_nat e) is <-> exists v row, nth_error e2v e = Some v /\ In row rows /\ Permutation row v) /\
    (forall i x, In (i, x) (combine is vs) -> exists e v k row, i = Z.of_nat e /\ nth_error e2v e = Some v /\ nth_error rows k = Some row /\ Permutation row v /\ nth_error values k = Some x).
Proof.
  intros Hnv He Hd Hr Hl. destruct (index_ok e2v nv Hnv He rows Hd Hr) as (idx & Ei & Hi). assert (Hil : length idx = length rows) by (clear -Hi; induction Hi; cbn; congruence).
  unfold create_meshtags. rewrite Ei. cbn [obind]. rewrite (proj2 (Nat.eqb_eq (length idx) (length values))) by lia. cbn [negb].
  destruct (sort_unique_correct srt idx values Hsrt ltac:(lia)) as (is & vs & Es & L1 & S1 & I1 & V1). rewrite Es. cbn [obind].
  destruct (drop_neg is vs S1 L1) as (L2 & S2 & I2). set (n := prefix_len _ is) in *. unfold tags_make. rewrite L2, Nat.eqb_refl. exists (skipn n is), (skipn n vs). split; [reflexivity|]. split; [exact L2|]. split; [exact S2|].
  assert (Hpair : forall a (b : list Z), length a = length b -> forall i : Z, In i a <-> exists x, In (i, x) (combine a b)).
  { clear. induction a as [|y a IH]; intros [|w b] H i; try discriminate; cbn [combine In]; [split; [easy|intros (_ & [])]|]. rewrite (IH b) by (cbn in H; lia). split.
    - intros [->|(x & Hx)]; [exists w; now left|exists x; now right].
    - intros (x & [E|Hx]); [left; congruence|right; eauto]. }
  assert (Hnth : forall k z, nth_error idx k = Some z -> exists row, nth_error rows k = Some row /\ index_of e2v row z).
  { clear -Hi. induction Hi as [|row z rows idx H Hi IH]; intros [|k] z' E; try discriminate; cbn [nth_error] in *; [injection E as <-; eauto|apply IH, E]. }
  assert (Hnth' : forall row, In row rows -> exists z, In z idx /\ index_of e2v row z).
  { clear -Hi. induction Hi as [|row z rows idx H Hi IH]; intros r Hr0; [destruct Hr0|]. destruct Hr0 as [->|Hin]; [exists z; split; [now left|exact H]|]. destruct (IH r Hin) as (z' & H1 & H2). exists z'. split; [now right|exact H2]. }
  split.
  - intro e. rewrite (Hpair _ _ L2). split.
    + intros (x & Hx). apply I2 in Hx as (_ & Hx). apply in_combine_l in Hx. apply I1 in Hx. apply In_nth_error in Hx as (k & Ek). destruct (Hnth k _ Ek) as (row & Er & [(e' & v & E1 & E2 & E3)|(E1 & _)]); [|lia].
      assert (e' = e) as -> by lia. exists v, row. split; [exact E2|]. split; [now apply nth_error_In in Er|exact E3].
    + intros (v & row & Ev & Hin & Hp). destruct (Hnth' row Hin) as (z & Hz & [(e' & v' & -> & E2 & E3)|(_ & N)]); [|now apply (N e v) in Hp].
      assert (e' = e) as -> by (apply (Hd e' e v' v E2 Ev); now rewrite <- E3). apply I1 in Hz. apply (Hpair is vs L1) in Hz as (x & Hx). exists x. apply I2. split; [lia|exact Hx].
  - intros i x Hx. apply I2 in Hx as (Hi0 & Hx). apply V1 in Hx as (Hx & _). apply combine_in_nth in Hx as (k & Ek & Ex). destruct (Hnth k _ Ek) as (row & Er & [(e & v & -> & E2 & E3)|(E1 & _)]); [|lia]. exists e, v, k, row. auto.
Qed.
Lemma create_throws e2v nv rows values : 0 < nv -> Forall (fun v => length v = nv) e2v -> Forall (fun v => length v = nv) rows -> length rows <> length values \/ ~ distinct e2v -> create_meshtags srt e2v nv (concat rows) values = None.
Proof.
  intros Hnv He Hr H. unfold create_meshtags.
  destruct (entities_to_index e2v nv (concat rows)) as [idx|] eqn:Ei; [|reflexivity]. cbn [obind].
  assert (Hd : distinct e2v).
  { unfold entities_to_index in Ei. destruct (build_keys e2v nv) as [t|] eqn:Et; [|discriminate]. clear -Et He. unfold build_keys in Et.
    set (F := fun t e => v <- nth_error e2v e ;; if length v =? nv then let key := isort Nat.leb v in if existsb (fun x => list_eqb (fst x) key) t then None else Some ((key, e) :: t) else None) in *.
    assert (G : forall n s t t', ofold F (seq s n) t = Some t' -> (forall k e, In (k, e) t -> In (k, e) t') /\ (forall e v, s <= e < s + n -> nth_error e2v e = Some v -> In (isort Nat.leb v, e) t') /\
              (forall e k v, s <= e < s + n -> nth_error e2v e = Some v -> In (isort Nat.leb v, k) t -> False) /\ (forall e e' v v', s <= e < s + n -> s <= e' < s + n -> nth_error e2v e = Some v -> nth_error e2v e' = Some v' -> isort Nat.leb v = isort Nat.leb v' -> e = e')).
    { induction n as [|n IH]; intros s u t' E; cbn [seq ofold] in E.
      - injection E as <-. split; [auto|]. split; [lia|]. split; [lia|lia].
      - destruct (F u s) as [u'|] eqn:EF; [|discriminate]. cbn [obind] in E. destruct (IH (S s) u' t' E) as (G1 & G2 & G3 & G4). unfold F in EF. destruct (nth_error e2v s) as [v|] eqn:Ev; [|discriminate]. cbn [obind] in EF. destruct (length v =? nv); [|discriminate]. cbn zeta in EF.
        destruct (existsb _ u) eqn:Ex; [discriminate|]. injection EF as <-.
        assert (Hno : forall k, ~ In (isort Nat.leb v, k) u). { intros k Hin. assert (existsb (fun x => list_eqb (fst x) (isort Nat.leb v)) u = true) by (apply existsb_exists; exists (isort Nat.leb v, k); split; [exact Hin|now apply list_eqb_iff]). congruence. }
        split; [intros k e Hin; apply G1; now right|]. split; [|split].
        + intros e w Hw Ew. destruct (Nat.eq_dec e s) as [->|N]; [|apply G2; [lia|exact Ew]]. rewrite Ev in Ew. injection Ew as <-. apply G1. now left.
        + intros e k w Hw Ew Hin. destruct (Nat.eq_dec e s) as [->|N]; [rewrite Ev in Ew; injection Ew as <-; now apply (Hno k)|]. apply (G3 e k w); [lia|exact Ew|now right].
        + intros e e' w w' H1 H2 E1 E2 Eq. destruct (Nat.eq_dec e s) as [->|N], (Nat.eq_dec e' s) as [->|N']; [reflexivity| | |apply (G4 e e' w w'); auto; lia].
          * exfalso. rewrite Ev in E1. injection E1 as <-. apply (G3 e' s w'); [lia|exact E2|]. left. congruence.
          * exfalso. rewrite Ev in E2. injection E2 as <-. apply (G3 e s w); [lia|exact E1|]. left. congruence. }
    destruct (G _ _ _ _ Et) as (_ & _ & _ & G4). intros i j vi vj Ei Ej Hp. apply (G4 i j vi vj); auto; [| |now apply sort_eq_perm]; (split; [lia|]; cbn; apply nth_error_Some; congruence). }
  destruct H as [H|H]; [|contradiction]. destruct (index_ok e2v nv Hnv He rows Hd Hr) as (idx' & Ei' & Hi'). rewrite Ei in Ei'. injection Ei' as <-.
  assert (length idx = length rows) by (clear -Hi'; induction Hi'; cbn; congruence). destruct (Nat.eqb_spec (length idx) (length values)); [lia|reflexivity].
Qed.
End Make.
