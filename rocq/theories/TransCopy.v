(** The loop that copies the locally transposed rows, and dense values of rows of blocks. *)
From Verif Require Import Base BaseProofs BucketProofs Algo AlgoProofs World WorldProofs IndexMap IndexMapSpec IndexMapProofs ScattererProofs RoundTrip
  SubMapProofs SparsityProofs MatrixCSR MatrixSpec MatrixProofs MatrixDense MatrixPar MatrixParSpec MatrixParProofs MatTrans TransLocal.
Open Scope nat_scope.

Lemma slice_mid {A} (x y z : list A) : slice (x ++ y ++ z) (length x) (length x + length y) = Some y.
Proof.
  apply slice_some. rewrite !app_length. do 2 (split; [lia|]). replace (length x + length y - length x) with (length y) by lia.
  rewrite skipn_app, skipn_all, Nat.sub_diag. cbn [app skipn]. rewrite firstn_app, firstn_all, Nat.sub_diag. cbn [firstn]. now rewrite app_nil_r.
Qed.
Lemma firstn_uniform {A} n (Bs : list (list A)) p : (forall B, In B Bs -> length B = n) -> concat (firstn p Bs) = firstn (p * n) (concat Bs).
Proof.
  revert p. induction Bs as [|B t IH]; intros p H; [now rewrite !firstn_nil|]. destruct p as [|p]; [reflexivity|]. cbn [firstn concat]. rewrite IH by (intros; apply H; now right).
  cbn [Nat.mul]. rewrite firstn_app, (firstn_all2 (n := n + p * n) B) by (rewrite (H B) by (now left); lia). f_equal. f_equal. rewrite (H B) by now left. lia.
Qed.
Lemma skipn_uniform {A} n (Bs : list (list A)) p : (forall B, In B Bs -> length B = n) -> concat (skipn p Bs) = skipn (p * n) (concat Bs).
Proof.
  revert p. induction Bs as [|B t IH]; intros p H; [now rewrite !skipn_nil|]. destruct p as [|p]; [reflexivity|]. cbn [skipn concat]. rewrite IH by (intros; apply H; now right).
  cbn [Nat.mul]. rewrite skipn_app, (skipn_all2 (n := n + p * n) B) by (rewrite (H B) by (now left); lia). cbn [app]. f_equal. rewrite (H B) by now left. lia.
Qed.
Lemma in_firstn {A} (x : A) n l : In x (firstn n l) -> In x l.
Proof. intro H. rewrite <- (firstn_skipn n l). apply in_or_app. now left. Qed.
Lemma in_skipn {A} (x : A) n l : In x (skipn n l) -> In x l.
Proof. intro H. rewrite <- (firstn_skipn n l). apply in_or_app. now right. Qed.
Lemma firstn_map_seq {A} (f : nat -> A) n N : n <= N -> firstn n (map f (seq 0 N)) = map f (seq 0 n).
Proof. intro H. replace N with (n + (N - n)) by lia. rewrite seq_app, map_app, firstn_app, map_length, seq_length, Nat.sub_diag. cbn [firstn]. rewrite app_nil_r. apply firstn_all2. rewrite map_length, seq_length. lia. Qed.

Section Copy.
Context {T : Type} (zero : T).
Variables bs0 bs1 : nat.
Notation nbs := (bs0 * bs1).
Variables (L : nat -> list (nat * list T)) (N : nat) (w : nat -> nat).
Hypothesis HL : forall j cb, In cb (L j) -> length (snd cb) = nbs.
Hypothesis Hw : forall j, j < N -> length (L j) <= w j.
Notation all := (concat (map L (seq 0 N))).
Notation rp0 := (psums (map (fun j => length (L j)) (seq 0 N))).
Notation rp := (psums (map w (seq 0 N))).
Definition copy_step : list nat * list T -> nat -> option (list nat * list T) := fun '(cs, vs) i =>
        a <- nth_error rp0 i ;; b <- nth_error rp0 (S i) ;; p <- nth_error rp i ;;
        c <- slice (map fst all) a b ;; v <- slice (concat (map snd all)) (a * bs0 * bs1) (b * bs0 * bs1) ;;
        cs' <- copy_at cs p c ;; vs' <- copy_at vs (p * bs0 * bs1) v ;; Some (cs', vs').

Definition at_w n := lsum (map w (seq 0 n)).
Lemma rp_at n : n <= N -> nth_error rp n = Some (at_w n).
Proof. intro H. rewrite psums_nth by (now rewrite map_length, seq_length). unfold at_w. now rewrite firstn_map_seq. Qed.
Lemma at_w_S n : at_w (S n) = at_w n + w n.
Proof. unfold at_w. rewrite seq_S, map_app, lsum_app. cbn [map]. rewrite lsum_cons, lsum_nil. cbn. lia. Qed.
Lemma at_w_mono n : n <= N -> at_w n <= at_w N.
Proof. intro H. replace N with (n + (N - n)) by lia. unfold at_w. rewrite seq_app, map_app, lsum_app. lia. Qed.
Lemma len_snd (D : list (nat * list T)) : (forall cb, In cb D -> length (snd cb) = nbs) -> length (concat (map snd D)) = length D * nbs.
Proof. intro H. rewrite (len_uniform nbs); [now rewrite map_length|]. intros B HB. apply in_map_iff in HB as (cb & <- & Hc). now apply H. Qed.

Lemma copy_one D n p : n < N -> p = at_w n -> (forall cb, In cb D -> length (snd cb) = nbs) -> length D = at_w N ->
  copy_step (two D) n = Some (two (firstn p D ++ L n ++ skipn (p + length (L n)) D)).
Proof.
  intros Hn -> HD HlD. unfold copy_step, two.
  set (x := concat (map L (seq 0 n))). set (z := concat (map L (seq (S n) (N - S n)))).
  assert (Eall : all = x ++ L n ++ z).
  { unfold x, z. replace N with (n + S (N - S n)) at 1 by lia. rewrite seq_app, map_app, concat_app. cbn [seq map concat plus]. reflexivity. }
  assert (Ex : forall k, k <= N -> nth_error rp0 k = Some (length (concat (map L (seq 0 k))))).
  { intros k Hk. rewrite psums_nth by (now rewrite map_length, seq_length). rewrite firstn_map_seq by exact Hk. f_equal. rewrite <- (map_map L (@length _)). apply lsum_concat_length. }
  rewrite (Ex n) by lia. cbn [obind]. rewrite (Ex (S n)) by lia. cbn [obind]. rewrite rp_at by lia. cbn [obind].
  fold x. assert (ExS : length (concat (map L (seq 0 (S n)))) = length x + length (L n)).
  { rewrite seq_S, map_app, concat_app, app_length. cbn [plus map concat]. now rewrite app_nil_r. }
  rewrite ExS. rewrite Eall. rewrite !map_app. rewrite !concat_app.
  pose proof (slice_mid (map fst x) (map fst (L n)) (map fst z)) as E1. rewrite !map_length in E1. rewrite E1. cbn [obind].
  assert (Hxin : forall cb, In cb x -> length (snd cb) = nbs).
  { intros cb H. unfold x in H. apply in_concat in H as (l & Hl & H). apply in_map_iff in Hl as (j & <- & _). eapply HL; eauto. }
  pose proof (slice_mid (concat (map snd x)) (concat (map snd (L n))) (concat (map snd z))) as E2. rewrite !len_snd in E2 by (eauto using HL).
  replace ((length x + length (L n)) * bs0 * bs1) with (length x * nbs + length (L n) * nbs) by lia. replace (length x * bs0 * bs1) with (length x * nbs) by lia.
  rewrite E2. cbn [obind]. pose proof (Hw n Hn) as Hwn. pose proof (at_w_S n) as HS. pose proof (at_w_mono (S n) ltac:(lia)) as Hm.
  unfold copy_at at 1. rewrite !map_length. destruct (Nat.leb_spec (at_w n + length (L n)) (length D)) as [Lc|Lc]; [|lia]. cbn [obind].
  unfold copy_at. rewrite !len_snd by (eauto using HL).
  assert (Hle : at_w n * bs0 * bs1 + length (L n) * nbs <= length D * nbs) by (rewrite <- Nat.mul_assoc, <- Nat.mul_add_distr_r; apply Nat.mul_le_mono_r; lia).
  destruct (Nat.leb_spec (at_w n * bs0 * bs1 + length (L n) * nbs) (length D * nbs)) as [Lv|Lv]; [|lia]. cbn [obind]. f_equal.
  rewrite ?map_app, ?concat_app, ?firstn_map, ?skipn_map. f_equal. f_equal; [|f_equal].
  - rewrite <- firstn_map, (firstn_uniform nbs) by (intros B HB; apply in_map_iff in HB as (cb & <- & Hc); auto). f_equal. lia.
  - rewrite <- skipn_map, (skipn_uniform nbs) by (intros B HB; apply in_map_iff in HB as (cb & <- & Hc); auto). f_equal. rewrite Nat.mul_add_distr_r. lia.
Qed.

Lemma copy_loop D0 : (forall cb, In cb D0 -> length (snd cb) = nbs) -> length D0 = at_w N -> forall n, n <= N -> exists cur D,
  ofold place (concat (map (fun j => map (pair j) (L j)) (seq 0 n))) (map at_w (seq 0 N), D0) = Some (cur, D) /\
  (forall cb, In cb D -> length (snd cb) = nbs) /\ length D = at_w N /\ length cur = N /\
  (forall i, i < N -> nth_error cur i = Some (at_w i + (if i <? n then length (L i) else 0))) /\
  ofold copy_step (seq 0 n) (two D0) = Some (two D).
Proof.
  intros HD Hl. induction n as [|n IH]; intro Hn.
  - exists (map at_w (seq 0 N)), D0. cbn [seq map concat ofold]. rewrite map_length, seq_length. do 4 (split; [auto|]). split; [|reflexivity].
    intros i Hi. rewrite nth_error_map_some, nth_error_seq by exact Hi. cbn. f_equal. lia.
  - destruct (IH ltac:(lia)) as (cur & D & E & HD' & Hl' & Hlc & Hc & E'). rewrite seq_S, map_app, concat_app. cbn [plus map concat]. rewrite app_nil_r, !ofold_app, E, E'. cbn [obind].
    pose proof (Hc n ltac:(lia)) as Hcn. rewrite Nat.ltb_irrefl, Nat.add_0_r in Hcn. pose proof (Hw n ltac:(lia)). pose proof (at_w_S n). pose proof (at_w_mono (S n) ltac:(lia)).
    destruct (copy_place (L n) cur D n (at_w n) Hcn ltac:(lia)) as (cur' & Ep & Lc & Nc & Oc). rewrite Ep. exists cur'. eexists. split; [reflexivity|].
    split. { intros cb H2. apply in_app_or in H2 as [H2|H2]; [apply HD'; eapply in_firstn; eauto|]. apply in_app_or in H2 as [H2|H2]; [eapply HL; eauto|apply HD'; eapply in_skipn; eauto]. }
    split. { rewrite !app_length, firstn_length, skipn_length. lia. }
    split; [lia|]. split.
    + intros i Hi. destruct (Nat.eq_dec i n) as [->|Ne].
      * rewrite Nc. f_equal. destruct (Nat.ltb_spec n (S n)); lia.
      * rewrite Oc by exact Ne. rewrite Hc by exact Hi. f_equal. destruct (Nat.ltb_spec i n), (Nat.ltb_spec i (S n)); lia.
    + cbn [ofold]. rewrite (copy_one D n (at_w n)) by (auto; lia). reflexivity.
Qed.
End Copy.

(** Dense values of a matrix given by rows of (column, block). *)
Section Dense.
Context {T : Type} (zero : T).
Variables (b0 b1 : nat) (rows : list (list (nat * list T))).
Definition of_rows : csr T := mkCSR b0 b1 (map fst (concat rows)) (psums (map (@length _) rows)) (concat (map snd (concat rows))).
Hypothesis Hb : forall row cb, In row rows -> In cb row -> length (snd cb) = b0 * b1.
Hypothesis Hs : forall row, In row rows -> StronglySorted lt (map fst row).
Hypothesis P0 : 0 < b0.
Hypothesis P1 : 0 < b1.
Notation ks := (map (map fst) rows).
Lemma ks_cols : mt_cols of_rows = concat ks /\ mt_rp of_rows = psums (map (@length nat) ks) /\ Forall (StronglySorted lt) ks.
Proof.
  cbn. split; [apply concat_map|]. split; [rewrite map_map; f_equal; apply map_ext; intro; now rewrite map_length|]. apply Forall_forall. intros l Hl. apply in_map_iff in Hl as (row & <- & H). now apply Hs.
Qed.
Lemma of_rows_ok : csr_ok of_rows.
Proof.
  destruct ks_cols as (E1 & E2 & E3). split; [exact P0|]. split; [exact P1|]. split; [exists ks; auto|]. cbn. rewrite (len_uniform (b0 * b1)); [rewrite !map_length; apply Nat.mul_assoc|].
  intros B HB. apply in_map_iff in HB as (cb & <- & H). apply in_concat in H as (row & Hr & H). eapply Hb; eauto.
Qed.
Lemma of_rows_R i : R ks i = map fst (nth i rows []).
Proof. unfold R. change (@nil nat) with (map (@fst nat (list T)) []). apply map_nth. Qed.
Lemma of_rows_has i c : row_has of_rows i c <-> i < length rows /\ In c (map fst (nth i rows [])).
Proof.
  destruct ks_cols as (E1 & E2 & E3). unfold row_has. rewrite E1, E2. split.
  - intros (l & E & H). destruct (lt_dec i (length rows)) as [L|L].
    + split; [exact L|]. rewrite slice_row in E by (rewrite map_length; lia). injection E as <-. now rewrite of_rows_R in H.
    + unfold slice_at in E. apply obind_some in E as (a & _ & E). apply obind_some in E as (b & E & _). apply nth_error_bound in E. rewrite psums_length, !map_length in E. lia.
  - intros (L & H). exists (R ks i). split; [apply slice_row; rewrite map_length; lia|]. now rewrite of_rows_R.
Qed.
Lemma of_rows_dense i c k0 k1 b : k0 < b0 -> k1 < b1 -> In (c, b) (nth i rows []) -> dense zero of_rows (i * b0 + k0) (c * b1 + k1) = nth (k0 * b1 + k1) b zero.
Proof.
  intros H0 H1 Hin. destruct ks_cols as (E1 & E2 & E3). rewrite (dense_R zero of_rows ks b0 b1) by (auto). rewrite of_rows_R.
  apply In_nth_error in Hin as (t & Ht). assert (Hi : i < length rows). { destruct (lt_dec i (length rows)) as [L|L]; [exact L|]. rewrite nth_overflow in Ht by lia. destruct t; discriminate. }
  pose proof (nth_error_nth_some rows i [] Hi) as Er. pose proof (nth_error_In _ _ Er) as Hrow.
  assert (Et : nth_error (map fst (nth i rows [])) t = Some c) by (rewrite nth_error_map_some, Ht; reflexivity).
  destruct (index_in_in _ _ (nth_error_In _ _ Et)) as (t' & Et'). rewrite Et'. apply index_in_some in Et'.
  pose proof (NoDup_nth_error_inj _ _ _ _ (SS_lt_NoDup _ (Hs _ Hrow)) Et Et') as <-.
  assert (Eo : off ks i = lsum (firstn i (map (@length _) rows))).
  { unfold off. rewrite map_map. f_equal. f_equal. apply map_ext. intro. apply map_length. }
  assert (Eb : nth_error (map snd (concat rows)) (off ks i + t) = Some b).
  { rewrite nth_error_map_some, Eo, (nth_error_concat rows i (nth i rows []) t Er), Ht; [reflexivity|]. eapply nth_error_bound; eauto. }
  cbn [mt_data of_rows]. pose proof (nth_uniform (b0 * b1) (map snd (concat rows)) ((off ks i + t) * (b0 * b1) + (k0 * b1 + k1))) as Hu.
  assert (Hlt : k0 * b1 + k1 < b0 * b1). { assert (S k0 * b1 <= b0 * b1) by (apply Nat.mul_le_mono_r; lia). lia. }
  assert (Hn : 0 < b0 * b1) by lia. rewrite Nat.div_add_l, (Nat.div_small _ _ Hlt), Nat.add_0_r, Eb in Hu by lia.
  rewrite (Nat.add_comm (_ * _)), Nat.mod_add, (Nat.mod_small _ _ Hlt) in Hu by lia.
  assert (Lb : length b = b0 * b1) by (apply (Hb (nth i rows []) (c, b)); [exact Hrow|eapply nth_error_In; eauto]).
  rewrite (Nat.add_comm (_ * _)). apply nth_error_nth. rewrite Hu.
  - apply nth_error_nth_some. lia.
  - exact Hn.
  - intros B HB. apply in_map_iff in HB as (cb & <- & H). apply in_concat in H as (row & Hr & H). eapply Hb; eauto.
Qed.
End Dense.
