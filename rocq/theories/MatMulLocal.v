(** Proofs about the accumulation of a row of the product. *)
From Coq Require Import Ring.
From Verif Require Import Base BaseProofs BucketProofs Algo AlgoProofs RoundTrip ScattererProofs MatrixCSR VectorOps VectorOpsProofs MatTrans MatMul.
Open Scope nat_scope.

Section Acc.
Context {T : Type}.
Variables (zero one : T) (add mul sub : T -> T -> T) (opp : T -> T) (eqb : T -> T -> bool).
Hypothesis Rth : ring_theory zero one add mul sub opp eq.
Add Ring Tr : Rth.
Hypothesis eqb_ok : forall x y, eqb x y = true <-> x = y.
Variables n owned : nat.
Notation tsum := (VectorOps.tsum T zero add).

Definition rsum (row : list (nat * T)) k := tsum (vals k row).
Definition nz (row : list (nat * T)) k := existsb (fun v => negb (eqb v zero)) (vals k row).
Definition crow (row : list (nat * T)) : list (nat * T) :=
  map (fun k => (k, rsum row k)) (filter (fun k => negb (eqb (rsum row k) zero)) (seq 0 n)).

Lemma nz_false row k : nz row k = false -> rsum row k = zero.
Proof.
  unfold nz, rsum. induction (vals k row) as [|v t IH]; intro H; [reflexivity|]. cbn [existsb] in H. apply Bool.orb_false_iff in H as (H1 & H2).
  apply Bool.negb_false_iff, eqb_ok in H1. rewrite tsum_cons, IH by exact H2. subst v. ring.
Qed.

Lemma acc_items row : Forall (fun kv => fst kv < n) row -> exists rc,
  ofold (acc_add zero add eqb) row (repeat zero n, (repeat false n, [])) = Some (map (rsum row) (seq 0 n), (map (nz row) (seq 0 n), rc)) /\
  NoDup rc /\ forall k, In k rc <-> k < n /\ nz row k = true.
Proof.
  intro HF. set (Inv := fun (p : list (nat * T)) (st : acc_state) => fst st = map (rsum p) (seq 0 n) /\ fst (snd st) = map (nz p) (seq 0 n) /\
    NoDup (snd (snd st)) /\ forall k, In k (snd (snd st)) <-> k < n /\ nz p k = true).
  destruct (ofold_prefix_ind (acc_add zero add eqb) Inv row (repeat zero n, (repeat false n, []))) as ([acc [ir rc]] & E & I1 & I2 & I3 & I4).
  - unfold Inv. cbn [fst snd]. split; [|split; [|split]].
    + apply nth_error_ext. intro i. rewrite nth_error_map_some. destruct (lt_dec i n) as [L|L].
      * rewrite nth_error_repeat, nth_error_seq by exact L. reflexivity.
      * rewrite !(proj2 (nth_error_None _ _)); [reflexivity|rewrite seq_length; lia|rewrite repeat_length; lia].
    + apply nth_error_ext. intro i. rewrite nth_error_map_some. destruct (lt_dec i n) as [L|L].
      * rewrite nth_error_repeat, nth_error_seq by exact L. reflexivity.
      * rewrite !(proj2 (nth_error_None _ _)); [reflexivity|rewrite seq_length; lia|rewrite repeat_length; lia].
    + constructor.
    + intro k. split; [intros []|intros (_ & H)]. discriminate.
  - intros p [k v] q [acc [ir rc]] Ep (I1 & I2 & I3 & I4). cbn [fst snd] in *. subst acc ir.
    assert (Hk : k < n). { rewrite Forall_forall in HF. apply (HF (k, v)). rewrite Ep. apply in_app_iff. right. now left. }
    unfold acc_add. rewrite nth_error_map_some, nth_error_seq by exact Hk. cbn [option_map obind plus].
    assert (Evs : forall k', vals k' (p ++ [(k, v)]) = vals k' p ++ if k =? k' then [v] else []) by (intro k'; now rewrite vals_app, vals_one).
    assert (Eacc : modify (map (rsum p) (seq 0 n)) k (fun x => add x v) = Some (map (rsum (p ++ [(k, v)])) (seq 0 n))).
    { destruct (modify_some (map (rsum p) (seq 0 n)) k (fun x => add x v)) as (l' & El); [now rewrite map_length, seq_length|]. rewrite El. f_equal.
      apply nth_error_ext. intro i. rewrite (modify_nth _ _ _ i _ El), !nth_error_map_some. destruct (lt_dec i n) as [L|L].
      - rewrite nth_error_seq by exact L. cbn [option_map plus]. unfold rsum. rewrite Evs, (tsum_app T zero one add mul sub opp Rth). destruct (k =? i); rewrite ?tsum_cons, tsum_nil; f_equal; ring.
      - rewrite (proj2 (nth_error_None (seq 0 n) i)) by (rewrite seq_length; lia). cbn. now destruct (k =? i). }
    rewrite Eacc. assert (Enz : forall k', nz (p ++ [(k, v)]) k' = nz p k' || ((k =? k') && negb (eqb v zero))%bool).
    { intro k'. unfold nz. rewrite Evs, existsb_app. f_equal. destruct (k =? k'); cbn; [apply Bool.orb_false_r|reflexivity]. }
    destruct (negb (nz p k) && negb (eqb v zero)) eqn:Eb.
    + apply Bool.andb_true_iff in Eb as (Eb1 & Eb2). apply Bool.negb_true_iff in Eb1. destruct (upd_some (map (nz p) (seq 0 n)) k true) as (l' & El); [now rewrite map_length, seq_length|].
      rewrite El. cbn [obind]. eexists. split; [reflexivity|]. unfold Inv. cbn [fst snd]. split; [reflexivity|]. split; [|split].
      * apply nth_error_ext. intro i. rewrite (upd_nth _ _ _ i _ El), !nth_error_map_some. destruct (lt_dec i n) as [L|L].
        -- rewrite nth_error_seq by exact L. cbn [option_map plus]. rewrite Enz, Eb2. destruct (Nat.eqb_spec k i) as [<-|N]; [now rewrite Bool.orb_true_r|]. now rewrite Bool.orb_false_r.
        -- rewrite (proj2 (nth_error_None (seq 0 n) i)) by (rewrite seq_length; lia). destruct (Nat.eqb_spec k i); [lia|reflexivity].
      * apply NoDup_app_intro; [exact I3|repeat constructor; intros []|]. intros x Hx [<-|[]]. apply I4 in Hx as (_ & Hx). congruence.
      * intro k'. rewrite in_app_iff, I4, Enz, Eb2. destruct (Nat.eqb_spec k k') as [<-|N]; cbn [andb].
        -- rewrite Bool.orb_true_r. split; [intros _; auto|intros _; right; now left].
        -- rewrite Bool.orb_false_r. split; [intros [H|[H|[]]]; [exact H|congruence]|now left].
    + cbn [obind]. eexists. split; [reflexivity|]. unfold Inv. cbn [fst snd]. split; [reflexivity|].
      assert (Enz' : forall k', nz (p ++ [(k, v)]) k' = nz p k').
      { intro k'. rewrite Enz. destruct (Nat.eqb_spec k k') as [<-|N]; cbn [andb]; [|apply Bool.orb_false_r]. destruct (nz p k), (negb (eqb v zero)); cbn in *; congruence. }
      split; [apply map_ext; intro; now rewrite Enz'|]. split; [exact I3|]. intro k'. now rewrite Enz'.
  - cbn [fst snd] in *. subst acc ir. exists rc. auto.
Qed.

Lemma drop_ok (f : nat -> T) rc (ir : nat -> bool) : NoDup rc -> (forall k, In k rc <-> k < n /\ ir k = true) ->
  drop_zeros zero eqb (map f (seq 0 n)) (map ir (seq 0 n)) rc
  = Some (map (fun k => ir k && negb (eqb (f k) zero)) (seq 0 n), filter (fun k => negb (eqb (f k) zero)) rc).
Proof.
  intros Hn Hin. unfold drop_zeros. set (Inv := fun (p : list nat) (st : list bool * list nat) =>
    fst st = map (fun k => ir k && negb (mem k p && eqb (f k) zero)) (seq 0 n) /\ snd st = filter (fun k => negb (eqb (f k) zero)) p).
  match goal with |- ofold ?g ?l ?s = _ => destruct (ofold_prefix_ind g Inv l s) as ([i' kept] & E & I1 & I2) end.
  - unfold Inv. cbn. split; [|reflexivity]. apply map_ext. intro. now rewrite Bool.andb_true_r.
  - intros p c q [ir' kept] Ep (I1 & I2). cbn [fst snd] in *. subst ir' kept. assert (Hc : In c rc) by (rewrite Ep; apply in_app_iff; right; now left).
    apply Hin in Hc as (Hc & Ic). rewrite nth_error_map_some, nth_error_seq by exact Hc. cbn [option_map obind plus]. unfold Inv. rewrite filter_app. cbn [filter].
    assert (Em : forall k, mem k (p ++ [c]) = mem k p || (c =? k)).
    { intro k. apply Bool.eq_iff_eq_true. rewrite Bool.orb_true_iff, !mem_iff, in_app_iff, Nat.eqb_eq. cbn. intuition. }
    destruct (eqb (f c) zero) eqn:Ez; cbn [negb].
    + destruct (upd_some (map (fun k => ir k && negb (mem k p && eqb (f k) zero)) (seq 0 n)) c false) as (l' & El); [now rewrite map_length, seq_length|]. rewrite El. cbn [obind].
      eexists. split; [reflexivity|]. cbn [fst snd]. split; [|now rewrite app_nil_r]. apply nth_error_ext. intro i. rewrite (upd_nth _ _ _ i _ El), !nth_error_map_some.
      destruct (lt_dec i n) as [L|L].
      * rewrite nth_error_seq by exact L. cbn [option_map plus]. rewrite Em. destruct (Nat.eqb_spec c i) as [<-|N]; [|now rewrite Bool.orb_false_r]. rewrite Bool.orb_true_r, Ez. cbn. now rewrite Bool.andb_false_r.
      * rewrite (proj2 (nth_error_None (seq 0 n) i)) by (rewrite seq_length; lia). destruct (Nat.eqb_spec c i); [lia|reflexivity].
    + eexists. split; [reflexivity|]. cbn [fst snd]. split; [|reflexivity]. apply map_ext. intro k. rewrite Em. destruct (Nat.eqb_spec c k) as [<-|N]; [rewrite Ez, !Bool.andb_false_r; reflexivity|now rewrite Bool.orb_false_r].
  - rewrite E. cbn [fst snd] in *. subst i' kept. f_equal. f_equal. apply map_ext_in. intros k Hk. apply in_seq in Hk. destruct (ir k) eqn:Ek; [|reflexivity]. cbn [andb].
    replace (mem k rc) with true; [reflexivity|]. symmetry. apply mem_iff, Hin. split; [lia|exact Ek].
Qed.

Lemma flush_ok (f : nat -> T) (ir : nat -> bool) rc cols vs : (forall k, In k rc -> k < n) -> NoDup rc -> (forall k, k < n -> ~ In k rc -> f k = zero /\ ir k = false) ->
  flush zero (map f (seq 0 n)) (map ir (seq 0 n)) rc cols vs = Some ((repeat zero n, repeat false n), (cols ++ rc, vs ++ map f rc)).
Proof.
  intros Hlt Hn H0. unfold flush. set (Inv := fun (p : list nat) (st : (list T * list bool) * (list nat * list T)) =>
    fst (fst st) = map (fun k => if mem k p then zero else f k) (seq 0 n) /\ snd (fst st) = map (fun k => if mem k p then false else ir k) (seq 0 n) /\
    snd st = (cols ++ p, vs ++ map f p)).
  match goal with |- ofold ?g ?l ?s = _ => destruct (ofold_prefix_ind g Inv l s) as ([[a i'] o] & E & I1 & I2 & I3) end.
  - unfold Inv. cbn. now rewrite !app_nil_r.
  - intros p c q [[a i'] o] Ep (I1 & I2 & I3). cbn [fst snd] in *. subst a i' o. assert (Hc : c < n) by (apply Hlt; rewrite Ep; apply in_app_iff; right; now left).
    assert (Hnp : mem c p = false). { apply Bool.not_true_iff_false. rewrite mem_iff. intro Hp. rewrite Ep in Hn. apply NoDup_remove_2 in Hn. apply Hn. apply in_app_iff. now left. }
    assert (Em : forall k, mem k (p ++ [c]) = mem k p || (c =? k)).
    { intro k. apply Bool.eq_iff_eq_true. rewrite Bool.orb_true_iff, !mem_iff, in_app_iff, Nat.eqb_eq. cbn. intuition. }
    rewrite nth_error_map_some, nth_error_seq by exact Hc. cbn [option_map obind plus]. rewrite Hnp.
    destruct (upd_some (map (fun k => if mem k p then zero else f k) (seq 0 n)) c zero) as (l1 & E1); [now rewrite map_length, seq_length|].
    destruct (upd_some (map (fun k => if mem k p then false else ir k) (seq 0 n)) c false) as (l2 & E2); [now rewrite map_length, seq_length|].
    rewrite E1. cbn [obind]. rewrite E2. cbn [obind]. eexists. split; [reflexivity|]. unfold Inv. cbn [fst snd]. split; [|split].
    + apply nth_error_ext. intro i. rewrite (upd_nth _ _ _ i _ E1), !nth_error_map_some. destruct (lt_dec i n) as [L|L].
      * rewrite nth_error_seq by exact L. cbn [option_map plus]. rewrite Em. destruct (Nat.eqb_spec c i) as [<-|N]; [now rewrite Bool.orb_true_r|now rewrite Bool.orb_false_r].
      * rewrite (proj2 (nth_error_None (seq 0 n) i)) by (rewrite seq_length; lia). destruct (Nat.eqb_spec c i); [lia|reflexivity].
    + apply nth_error_ext. intro i. rewrite (upd_nth _ _ _ i _ E2), !nth_error_map_some. destruct (lt_dec i n) as [L|L].
      * rewrite nth_error_seq by exact L. cbn [option_map plus]. rewrite Em. destruct (Nat.eqb_spec c i) as [<-|N]; [now rewrite Bool.orb_true_r|now rewrite Bool.orb_false_r].
      * rewrite (proj2 (nth_error_None (seq 0 n) i)) by (rewrite seq_length; lia). destruct (Nat.eqb_spec c i); [lia|reflexivity].
    + now rewrite map_app, !app_assoc.
  - rewrite E. cbn [fst snd] in *. subst a i' o. f_equal. f_equal. f_equal.
    + apply nth_error_ext. intro i. rewrite nth_error_map_some. destruct (lt_dec i n) as [L|L].
      * rewrite nth_error_repeat, nth_error_seq by exact L. cbn. destruct (mem i rc) eqn:Ei; [reflexivity|]. f_equal. apply H0; [exact L|]. rewrite <- mem_iff. congruence.
      * rewrite !(proj2 (nth_error_None _ _)); [reflexivity|rewrite repeat_length; lia|rewrite seq_length; lia].
    + apply nth_error_ext. intro i. rewrite nth_error_map_some. destruct (lt_dec i n) as [L|L].
      * rewrite nth_error_repeat, nth_error_seq by exact L. cbn. destruct (mem i rc) eqn:Ei; [reflexivity|]. f_equal. apply H0; [exact L|]. rewrite <- mem_iff. congruence.
      * rewrite !(proj2 (nth_error_None _ _)); [reflexivity|rewrite repeat_length; lia|rewrite seq_length; lia].
Qed.

Lemma mm_row_ok row o : Forall (fun kv => fst kv < n) row ->
  mm_row zero add eqb owned ((repeat zero n, repeat false n), o) row =
  Some ((repeat zero n, repeat false n),
        mkMM (mm_rp o ++ [length (mm_cols o ++ map fst (crow row))]) (mm_off o ++ [length (filter (fun c => c <? owned) (map fst (crow row)))])
             (mm_cols o ++ map fst (crow row)) (mm_vals o ++ map snd (crow row))).
Proof.
  intro HF. unfold mm_row. destruct (acc_items row HF) as (rc & E & Hn & Hin). rewrite E. cbn [obind]. rewrite (drop_ok (rsum row) rc (nz row) Hn Hin). cbn [obind].
  set (kept := filter (fun k => negb (eqb (rsum row k) zero)) rc).
  assert (Ek : isort Nat.leb kept = filter (fun k => negb (eqb (rsum row k) zero)) (seq 0 n)).
  { apply nsort_unique.
    - eapply SS_impl_in; [|apply SS_filter, SS_lt_seq]. cbn; intros; lia.
    - apply NoDup_Permutation; [now apply NoDup_filter|apply NoDup_filter, seq_NoDup|]. intro k. unfold kept. rewrite !filter_In, Hin, in_seq. split.
      + intros ((A & B) & C). split; [lia|exact C].
      + intros (A & C). split; [|exact C]. split; [lia|]. destruct (nz row k) eqn:En; [reflexivity|]. apply nz_false in En. apply Bool.negb_true_iff in C.
        assert (eqb (rsum row k) zero = true) by now apply eqb_ok. congruence. }
  rewrite Ek. set (ks := filter (fun k => negb (eqb (rsum row k) zero)) (seq 0 n)).
  rewrite (flush_ok (rsum row) (fun k => nz row k && negb (eqb (rsum row k) zero)) ks).
  - cbn [obind]. unfold crow. fold ks. rewrite !map_map. cbn [fst snd]. rewrite map_id. reflexivity.
  - intros k Hk. apply filter_In in Hk as (Hk & _). apply in_seq in Hk. lia.
  - apply NoDup_filter, seq_NoDup.
  - intros k Hk Hni. assert (Ez : eqb (rsum row k) zero = true).
    { destruct (eqb (rsum row k) zero) eqn:Ez; [reflexivity|]. exfalso. apply Hni, filter_In. split; [apply in_seq; lia|]. now rewrite Ez. }
    split; [now apply eqb_ok|]. rewrite Ez. apply Bool.andb_false_r.
Qed.

Lemma mm_rows_ok rows : Forall (Forall (fun kv => fst kv < n)) rows ->
  mm_rows zero add eqb n owned rows =
  Some (mkMM (psums (map (@length _) (map crow rows))) (map (fun row => length (filter (fun c => c <? owned) (map fst (crow row)))) rows)
             (map fst (concat (map crow rows))) (map snd (concat (map crow rows)))).
Proof.
  intro HF. unfold mm_rows. set (Inv := fun (p : list (list (nat * T))) (st : (list T * list bool) * mm_out) =>
    st = ((repeat zero n, repeat false n), mkMM (psums (map (@length _) (map crow p))) (map (fun row => length (filter (fun c => c <? owned) (map fst (crow row)))) p)
             (map fst (concat (map crow p))) (map snd (concat (map crow p))))).
  destruct (ofold_prefix_ind (mm_row zero add eqb owned) Inv rows ((repeat zero n, repeat false n), mkMM [0] [] [] [])) as (st & E & I).
  - reflexivity.
  - intros p row q st Ep ->. rewrite mm_row_ok by (rewrite Forall_forall in HF; apply HF; rewrite Ep; apply in_app_iff; right; now left).
    eexists. split; [reflexivity|]. unfold Inv. cbn [mm_rp mm_off mm_cols mm_vals]. rewrite !map_app. cbn [map]. rewrite concat_app. cbn [concat]. rewrite app_nil_r, !map_app. f_equal. f_equal.
    + rewrite app_length, !map_length. rewrite <- lsum_concat_length. generalize (map (@length _) (map crow p)) as l. intro l. clear.
      apply nth_error_ext. intro i. destruct (lt_dec i (length l)) as [L|L].
      * rewrite nth_error_app1 by (rewrite psums_length; lia). rewrite !psums_nth by (rewrite ?app_length; cbn; lia). rewrite firstn_app. replace (i - length l) with 0 by lia. cbn [firstn]. now rewrite app_nil_r.
      * destruct (Nat.eq_dec i (length l)) as [->|N].
        -- rewrite nth_error_app1 by (rewrite psums_length; lia). rewrite !psums_nth by (rewrite ?app_length; cbn; lia). rewrite firstn_app, Nat.sub_diag. cbn [firstn]. now rewrite app_nil_r.
        -- destruct (Nat.eq_dec i (S (length l))) as [->|N'].
           ++ rewrite nth_error_app2 by (rewrite psums_length; lia). rewrite psums_nth by (rewrite app_length; cbn; lia). rewrite psums_length, Nat.sub_diag. cbn [nth_error].
              rewrite firstn_all2 by (rewrite app_length; cbn; lia). rewrite lsum_app, lsum_cons, lsum_nil. f_equal. lia.
           ++ rewrite !(proj2 (nth_error_None _ _)); [reflexivity|rewrite psums_length, app_length; cbn; lia|rewrite app_length, psums_length; cbn; lia].
  - rewrite E, I. reflexivity.
Qed.
End Acc.
