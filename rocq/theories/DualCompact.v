(** The rows of the dual graph are sorted and made unique in place. *)
From Verif Require Import Base BaseProofs BucketProofs Algo AlgoProofs DualGraph DualStorage.
Open Scope nat_scope.

Lemma adj_diff_psums l : adj_diff 0 (tl (psums l)) = l.
Proof.
  unfold psums. assert (G : forall l a, adj_diff a (tl (psums_from a l)) = l); [|apply G].
  clear. induction l as [|x l IH]; intro a; [reflexivity|]. cbn [psums_from tl]. destruct l as [|y l].
  - cbn. f_equal. lia.
  - specialize (IH (a + x)). cbn [psums_from tl adj_diff] in *. f_equal; [lia|exact IH].
Qed.

Lemma blit_mid {A} (p x s v : list A) : length x = length v -> blit (p ++ x ++ s) (length p) v = Some (p ++ v ++ s).
Proof.
  intro H. unfold blit. transitivity (ofold (fun (mem : list A) w => upd mem (fst w) (snd w)) (combine (seq (length p) (length v)) v) (p ++ x ++ s)).
  - assert (G : forall (v : list A) b c l, ofold (fun l iv => upd l (c + fst iv) (snd iv)) (combine (seq b (length v)) v) l =
      ofold (fun (mem : list A) w => upd mem (fst w) (snd w)) (combine (seq (c + b) (length v)) v) l).
    { clear. induction v as [|y v IH]; intros b c l; [reflexivity|]. cbn [length seq combine ofold fst snd]. destruct (upd l (c + b) y) as [l'|]; [|reflexivity]. cbn [obind].
      rewrite IH. do 3 f_equal. lia. }
    rewrite G, Nat.add_0_r. reflexivity.
  - apply scatter; [reflexivity|lia].
Qed.
Lemma unique_le {A} (e : A -> A -> bool) l : length (unique e l) <= length l.
Proof.
  unfold unique. destruct l as [|x l]; [cbn; lia|]. cbn [length].
  revert x. induction l as [|y l IH]; intro x; cbn; [lia|]. destruct (e x y); cbn; [specialize (IH x)|specialize (IH y)]; lia.
Qed.
Lemma slice_mid {A} (p x s : list A) : slice (p ++ x ++ s) (length p) (length p + length x) = Some x.
Proof.
  apply slice_some. rewrite !app_length. split; [lia|]. split; [lia|]. replace (length p + length x - length p) with (length x) by lia.
  rewrite skipn_app, skipn_all, Nat.sub_diag. cbn [app skipn]. rewrite firstn_app, firstn_all, Nat.sub_diag. cbn. now rewrite app_nil_r.
Qed.

Lemma firstn_snoc {A} k (l : list A) x : nth_error l k = Some x -> firstn (S k) l = firstn k l ++ [x].
Proof. revert l. induction k as [|k IH]; intros [|y l] H; try discriminate; cbn in H; [injection H as ->; reflexivity|]. change (firstn (S (S k)) (y :: l)) with (y :: firstn (S k) l). rewrite (IH l H). reflexivity. Qed.
Lemma skipn_snoc {A} k (l : list A) x : nth_error l k = Some x -> skipn k l = x :: skipn (S k) l.
Proof. revert l. induction k as [|k IH]; intros [|y l] H; try discriminate; cbn in H; [injection H as ->; reflexivity|]. exact (IH l H). Qed.

Definition oinv (rows : list (list nat)) (k : nat) : list nat :=
  firstn k (psums (map (@length nat) (map sort_uniq rows))) ++ skipn k (psums (map (@length nat) rows)).

Lemma compact_step_ok rows k row data gap : nth_error rows k = Some row ->
  data = concat (map sort_uniq (firstn k rows)) ++ gap ++ concat (skipn k rows) ->
  length (concat (map sort_uniq (firstn k rows))) + length gap = length (concat (firstn k rows)) ->
  exists data' gap', compact_step (data, oinv rows k, length (concat (map sort_uniq (firstn k rows)))) k =
      Some (data', oinv rows (S k), length (concat (map sort_uniq (firstn (S k) rows)))) /\
    data' = concat (map sort_uniq (firstn (S k) rows)) ++ gap' ++ concat (skipn (S k) rows) /\
    length (concat (map sort_uniq (firstn (S k) rows))) + length gap' = length (concat (firstn (S k) rows)).
Proof.
  intros Hk -> Hg. pose proof (nth_error_bound _ _ _ Hk) as Hb.
  set (Wr := concat (map sort_uniq (firstn k rows))) in *.
  pose proof (firstn_snoc k rows row Hk) as F1. pose proof (skipn_snoc k rows row Hk) as F2.
  set (rest := concat (skipn (S k) rows)).
  assert (E2 : concat (skipn k rows) = row ++ rest) by (rewrite F2; reflexivity). rewrite E2.
  assert (E1 : concat (map sort_uniq (firstn (S k) rows)) = Wr ++ sort_uniq row) by (rewrite F1, map_app, concat_app; cbn; now rewrite app_nil_r).
  rewrite E1.
  assert (E3 : length (concat (firstn (S k) rows)) = length (concat (firstn k rows)) + length row) by (rewrite F1, concat_app, app_length; cbn; now rewrite app_nil_r).
  (* offsets *)
  set (lens := map (@length nat) rows). set (lens' := map (@length nat) (map sort_uniq rows)).
  assert (Ll : length (psums lens) = S (length rows)) by (rewrite psums_length; unfold lens; now rewrite map_length).
  assert (Ll' : length (psums lens') = S (length rows)) by (rewrite psums_length; unfold lens'; now rewrite !map_length).
  assert (Lf : length (firstn k (psums lens')) = k) by (rewrite firstn_length; lia).
  assert (On : forall i, k <= i -> i <= length rows -> nth_error (oinv rows k) i = Some (length (concat (firstn i rows)))).
  { intros i H1 H2. unfold oinv. fold lens lens'. rewrite nth_error_app2 by lia. rewrite Lf, nth_error_skipn. replace (k + (i - k)) with i by lia.
    rewrite psums_nth by (unfold lens; rewrite map_length; lia). f_equal. unfold lens. rewrite firstn_map. apply lsum_concat_length. }
  assert (Ou : upd (oinv rows k) k (length Wr) = Some (oinv rows (S k))).
  { assert (Sp : exists y, nth_error (psums lens) k = Some y) by (apply nth_error_lt; lia). destruct Sp as (y & Ey).
    pose proof (skipn_snoc k (psums lens) y Ey) as Es.
    assert (Ep : firstn (S k) (psums lens') = firstn k (psums lens') ++ [length Wr]).
    { assert (Ey' : nth_error (psums lens') k = Some (length Wr)).
      { rewrite psums_nth by (unfold lens'; rewrite !map_length; lia). f_equal. unfold lens', Wr. rewrite firstn_map, firstn_map. apply lsum_concat_length. }
      now apply firstn_snoc. }
    unfold oinv. fold lens lens'. rewrite Es, Ep, <- app_assoc. cbn [app]. rewrite <- Lf at 3. apply upd_app_mid. }
  unfold compact_step. rewrite (On k) by lia. cbn [obind]. rewrite (On (S k)) by lia. cbn [obind]. rewrite Ou. cbn [obind]. rewrite E3, <- Hg.
  assert (A1 : forall z, Wr ++ gap ++ z = (Wr ++ gap) ++ z) by (intro; apply app_assoc). rewrite !A1. rewrite <- app_length. rewrite (slice_mid (Wr ++ gap) row rest). cbn [obind].
  rewrite (blit_mid (Wr ++ gap) row rest (isort Nat.leb row)) by (now rewrite isort_length). cbn [obind].
  fold (sort_uniq row). set (kept := sort_uniq row).
  assert (Lk : length kept <= length row) by (unfold kept, sort_uniq; etransitivity; [apply unique_le|]; now rewrite isort_length).
  set (tail := skipn (length kept) (isort Nat.leb row)).
  assert (Et : isort Nat.leb row = firstn (length kept) (isort Nat.leb row) ++ tail) by (symmetry; apply firstn_skipn).
  assert (Lh : length (firstn (length kept) (isort Nat.leb row)) = length kept) by (rewrite firstn_length, isort_length; lia).
  assert (Lt : length tail = length row - length kept) by (unfold tail; now rewrite skipn_length, isort_length).
  rewrite Et, <- (app_assoc (firstn (length kept) (isort Nat.leb row)) tail rest). rewrite (blit_mid (Wr ++ gap) (firstn (length kept) (isort Nat.leb row)) (tail ++ rest) kept Lh). cbn [obind].
  assert (Lkept : length (Wr ++ kept) = length Wr + length kept) by apply app_length. rewrite Lkept.
  destruct (Nat.eqb_spec (length Wr) (length (Wr ++ gap))) as [Eg|Ng]; cbn [negb].
  - assert (gap = []) as -> by (rewrite app_length in Eg; destruct gap; [reflexivity|cbn in Eg; lia]). rewrite app_nil_r. cbn [obind].
    eexists _, tail. split; [reflexivity|]. split; [now rewrite <- !app_assoc|]. cbn [length] in Hg. lia.
  - rewrite (slice_mid (Wr ++ gap) kept (tail ++ rest)). cbn [obind].
    set (mid := gap ++ kept).
    assert (Em : (Wr ++ gap) ++ kept ++ tail ++ rest = Wr ++ firstn (length kept) mid ++ (skipn (length kept) mid ++ tail ++ rest)).
    { rewrite <- app_assoc. f_equal. unfold mid. rewrite (app_assoc (firstn _ _)), firstn_skipn. now rewrite <- app_assoc. }
    rewrite Em. rewrite blit_mid by (rewrite firstn_length; unfold mid; rewrite app_length; lia). cbn [obind].
    eexists _, (skipn (length kept) mid ++ tail). split; [reflexivity|]. split; [now rewrite <- !app_assoc|].
    rewrite !app_length, skipn_length. unfold mid. rewrite !app_length. lia.
Qed.

Theorem compact_ok rows : compact (concat rows) (psums (map (@length nat) rows)) = Some (psums (map (@length nat) (map sort_uniq rows)), concat (map sort_uniq rows)).
Proof.
  unfold compact. rewrite psums_length, map_length. replace (S (length rows) - 1) with (length rows) by lia.
  destruct (ofold_prefix_ind compact_step (fun p (st : list nat * list nat * nat) => exists gap,
      st = (concat (map sort_uniq (firstn (length p) rows)) ++ gap ++ concat (skipn (length p) rows), oinv rows (length p), length (concat (map sort_uniq (firstn (length p) rows)))) /\
      length (concat (map sort_uniq (firstn (length p) rows))) + length gap = length (concat (firstn (length p) rows)))
      (seq 0 (length rows)) (concat rows, psums (map (@length nat) rows), 0)) as (st & E & gap & Est & _).
  - exists []. split; reflexivity.
  - intros p a q st Ep (gap & Est & Hg). destruct (seq_cut _ _ _ _ Ep) as (_ & -> & Ha). subst st.
    destruct (nth_error_lt rows (length p) Ha) as (row & Er).
    destruct (compact_step_ok rows (length p) row _ gap Er eq_refl Hg) as (data' & gap' & E1 & E2 & E3). rewrite E2 in E1. eexists. split; [exact E1|].
    rewrite app_length. cbn [length]. replace (length p + 1) with (S (length p)) by lia. exists gap'. auto.
  - rewrite E, Est. cbn [obind]. rewrite seq_length, firstn_all, skipn_all. cbn [concat]. rewrite app_nil_r.
    set (lens' := map (@length nat) (map sort_uniq rows)). set (lens := map (@length nat) rows).
    assert (Ll : length (psums lens) = S (length rows)) by (rewrite psums_length; unfold lens; now rewrite map_length).
    assert (Ll' : length (psums lens') = S (length rows)) by (rewrite psums_length; unfold lens'; now rewrite !map_length).
    assert (Lo : length (oinv rows (length rows)) = S (length rows)) by (unfold oinv; fold lens lens'; rewrite app_length, firstn_length, skipn_length; lia).
    rewrite Lo. replace (S (length rows) - 1) with (length rows) by lia.
    assert (Eo : upd (oinv rows (length rows)) (length rows) (length (concat (map sort_uniq rows))) = Some (psums lens')).
    { destruct (upd_some (oinv rows (length rows)) (length rows) (length (concat (map sort_uniq rows)))) as (o & Eo); [lia|]. rewrite Eo. f_equal. apply nth_error_ext. intro i.
      rewrite (upd_nth _ _ _ _ _ Eo). destruct (Nat.eqb_spec (length rows) i) as [<-|N].
      - rewrite psums_nth by (unfold lens'; rewrite !map_length; lia). f_equal. rewrite firstn_all2 by (unfold lens'; rewrite !map_length; lia). symmetry. apply lsum_concat_length.
      - destruct (Nat.lt_ge_cases i (length rows)) as [H|H].
        + unfold oinv. fold lens lens'. rewrite nth_error_app1 by (rewrite firstn_length; lia). apply nth_error_firstn. exact H.
        + transitivity (@None nat); [|symmetry]; apply nth_error_None; lia. }
    rewrite Eo. cbn [obind]. rewrite firstn_app, firstn_all, Nat.sub_diag. cbn [firstn]. rewrite app_nil_r. reflexivity.
Qed.
