(** Proofs about the reverse scatter of a distributed matrix. *)
From Coq Require Import Ring.
From Verif Require Import Base BaseProofs BucketProofs Algo AlgoProofs Nbx World WorldProofs IndexMap IndexMapSpec IndexMapProofs
  ImSharedProofs Scatterer ScattererProofs RoundTrip VectorOps VectorSpec VectorOpsProofs Sparsity SparsitySpec SparsityProofs
  MatrixCSR MatrixSpec MatrixProofs MatrixDense MatrixPar MatrixParSpec.
From Verif Require StackProofs.
Open Scope nat_scope.

(** * Lists *)
Lemma adj_diff_psums l : adj_diff (psums l) = l.
Proof.
  unfold psums. generalize 0 as a. induction l as [|x t IH]; intro a; [reflexivity|]. cbn [psums_from].
  destruct t as [|y t]; cbn [psums_from adj_diff] in *; [f_equal; lia|]. f_equal; [lia|apply IH].
Qed.
Lemma map_psums_scale n l : map (fun d => d * n) (psums l) = psums (map (fun d => d * n) l).
Proof.
  unfold psums. replace 0 with (0 * n) at 2 by reflexivity. generalize 0 as a. induction l as [|x t IH]; intro a; [reflexivity|].
  cbn [psums_from map]. f_equal. rewrite IH. f_equal. lia.
Qed.

Lemma nth_error_firstn {A} n (l : list A) i : i < n -> nth_error (firstn n l) i = nth_error l i.
Proof. revert l i. induction n as [|n IH]; intros l i H; [lia|]. destruct l as [|x t], i as [|i]; try reflexivity. cbn. apply IH. lia. Qed.
Lemma nth_error_skipn {A} n (l : list A) i : nth_error (skipn n l) i = nth_error l (n + i).
Proof. revert l. induction n as [|n IH]; intros l; [reflexivity|]. destruct l as [|x t]; [now destruct i|]. cbn. apply IH. Qed.
Lemma split_div B a i : (a + i / B) * B + i mod B = a * B + i.
Proof. pose proof (Nat.div_mod_eq i B). rewrite Nat.mul_add_distr_r. lia. Qed.
Lemma concat_concat_map {A B} (f : A -> list (list B)) l : concat (concat (map f l)) = concat (map (fun x => concat (f x)) l).
Proof. induction l as [|x t IH]; [reflexivity|]. cbn [map concat]. now rewrite concat_app, IH. Qed.

(** Items sent to the owners of the ghosts, one list for each ghost. *)
Section Items.
Context {V : Type} (d0 : V) (src ow : list nat) (f : nat -> list V).
Hypothesis Hss : StronglySorted lt src.
Hypothesis Hsin : forall o, In o ow -> In o src.
Definition nr (o : nat) := match index_in o src with Some k => k | None => 0 end.
Definition its := map (fun k => (nr (nth k ow 0), f k)) (seq 0 (length ow)).
Definition boxed d := concat (map (fun k => if nth k ow 0 =? d then f k else []) (seq 0 (length ow))).

Lemma nr_ok o : In o ow -> index_in o src = Some (nr o).
Proof. intro Ho. apply Hsin in Ho. destruct (index_in_in o src Ho) as (k & E). unfold nr. now rewrite E. Qed.
Lemma nr_map : omap (find_sorted src) ow = Some (map nr ow).
Proof. apply omap_map. intros o Ho. rewrite find_sorted_spec by exact Hss. now apply nr_ok. Qed.
Lemma its_lt it : In it its -> fst it < length src.
Proof.
  intro H. apply in_map_iff in H as (k & <- & Hk). apply in_seq in Hk. cbn. cbn in Hk.
  assert (Ho : In (nth k ow 0) ow) by (apply nth_In; lia). apply nr_ok in Ho. apply index_in_some, nth_error_bound in Ho. exact Ho.
Qed.
Lemma its_vals : map (fun k => vals k (flat_items its)) (seq 0 (length src)) = map boxed src.
Proof.
  apply map_seq_nth. intros k d Hd. rewrite vals_flat. unfold its, boxed. rewrite map_map. cbn [fst snd].
  f_equal. apply map_ext_in. intros j Hj. apply in_seq in Hj.
  assert (Ho : In (nth j ow 0) ow) by (apply nth_In; lia). apply nr_ok, index_in_some in Ho.
  destruct (Nat.eqb_spec (nr (nth j ow 0)) k) as [E|N], (Nat.eqb_spec (nth j ow 0) d) as [E'|N']; try reflexivity.
  - subst k. congruence.
  - exfalso. apply N. apply (NoDup_nth_error_inj src _ _ d); [now apply SS_lt_NoDup|rewrite <- E'; exact Ho|exact Hd].
Qed.
Lemma its_sizes : map (fun k => length (vals k (flat_items its))) (seq 0 (length src)) = map (fun d => length (boxed d)) src.
Proof. rewrite <- (map_map (fun k => vals k (flat_items its))), its_vals, map_map. reflexivity. Qed.
Lemma its_fold : ofold (fun w nt => modify w (fst nt) (fun x => x + length (snd nt))) its (repeat 0 (length src)) = Some (map (fun d => length (boxed d)) src).
Proof. rewrite sizes_fold by (intros; now apply its_lt). now rewrite its_sizes. Qed.
Lemma its_place : exists pos, ofold place (flat_items its) (psums (map (fun d => length (boxed d)) src), repeat d0 (last (psums (map (fun d => length (boxed d)) src)) 0))
  = Some (pos, concat (map boxed src)).
Proof.
  destruct (send_buffer d0 (length src) its its_lt) as (pos & E). rewrite its_sizes, its_vals in E. eauto.
Qed.
End Items.

(** Blocks of [n] updates each. *)
Lemma blocks_length {T} n (L : list (nat * list T)) : (forall b, In b L -> length (snd b) = n) -> length (concat (map snd L)) = length L * n.
Proof.
  induction L as [|b t IH]; intro H; [reflexivity|]. cbn [map concat length]. rewrite app_length, IH by (intros; apply H; now right).
  rewrite (H b) by now left. lia.
Qed.
Lemma blocks_fold {T} (add : T -> T -> T) n (L : list (nat * list T)) data : (forall b, In b L -> length (snd b) = n) ->
  ofold (fun data i => p <- nth_error (map fst L) i ;;
           ofold (fun data j => v <- nth_error (concat (map snd L)) (i * n + j) ;; apply_op add data (p * n + j) v) (seq 0 n) data)
    (seq 0 (length (map fst L))) data
  = ofold (upd1 add) (concat (map (fun b => map (fun jv => (fst b * n + fst jv, snd jv)) (enum (snd b))) L)) data.
Proof.
  intro Hn. rewrite map_length. rewrite <- StackProofs.ofold_nested. apply StackProofs.ofold_seq_nth. intros i b s Hb.
  rewrite nth_error_map_some, Hb. cbn [option_map obind]. destruct b as [p vs]. cbn [fst snd].
  assert (Hl : length vs = n) by (apply nth_error_In, Hn in Hb; exact Hb).
  rewrite StackProofs.ofold_map. unfold enum. rewrite Hl.
  rewrite <- (StackProofs.ofold_seq_nth (fun s j => v <- nth_error (concat (map snd L)) (i * n + j);; apply_op add s (p * n + j) v) _ (combine (seq 0 n) vs)).
  - rewrite combine_length, seq_length, Hl, Nat.min_id. reflexivity.
  - intros j [j' v] s' Hj. assert (Ej : j' = j /\ nth_error vs j = Some v).
    { assert (In (j', v) (combine (seq 0 n) vs)) by (eapply nth_error_In; eauto).
      pose proof (nth_error_bound _ _ _ Hj) as Lj. rewrite combine_length, seq_length, Hl, Nat.min_id in Lj.
      rewrite (nth_error_nth' _ (0, v)) in Hj by (rewrite combine_length, seq_length; lia).
      rewrite combine_nth in Hj by (now rewrite seq_length). rewrite seq_nth in Hj by exact Lj. injection Hj as <- Ev. split; [reflexivity|].
      rewrite <- Ev. apply nth_error_nth_some. lia. }
    destruct Ej as (-> & Ev).
    assert (Eo : nth_error (concat (map snd L)) (i * n + j) = Some v).
    { rewrite <- Ev. replace (i * n) with (lsum (firstn i (map (@length T) (map snd L)))).
      - apply nth_error_concat; [rewrite nth_error_map_some, Hb; reflexivity|]. eapply nth_error_bound; eauto.
      - pose proof (nth_error_bound _ _ _ Hb) as Lb. clear - Hn Lb. revert i Lb. induction L as [|b t IH]; intros i Lb; [cbn in Lb; lia|].
        destruct i as [|i]; [reflexivity|]. cbn [map firstn]. rewrite lsum_cons, IH; [|intros; apply Hn; now right|cbn in Lb; lia].
        rewrite (Hn b) by now left. lia. }
    rewrite Eo. cbn [obind]. unfold upd1. cbn [fst snd]. reflexivity.
Qed.

Lemma blocks_vals {T} (zero : T) n (L : list (nat * list T)) p j : (forall b, In b L -> length (snd b) = n) -> j < n ->
  vals (p * n + j) (concat (map (fun b => map (fun jv => (fst b * n + fst jv, snd jv)) (enum (snd b))) L))
  = concat (map (fun b => if fst b =? p then [nth j (snd b) zero] else []) L).
Proof.
  intros Hn Hj. rewrite vals_concat, map_map. f_equal. apply map_ext_in. intros [p' vs] Hb. specialize (Hn _ Hb). cbn [fst snd] in *.
  rewrite vals_map_filter. destruct (Nat.eqb_spec p' p) as [->|N].
  - rewrite (filter_single _ _ (j, nth j vs zero)); [reflexivity| | | |].
    + apply (NoDup_map_inv fst). unfold enum. rewrite map_fst_combine; [apply seq_NoDup|]. now rewrite seq_length.
    + apply in_enum, nth_error_nth_some. lia.
    + cbn. apply Nat.eqb_refl.
    + intros [j' v] Hin E. apply in_enum in Hin. cbn in E. apply Nat.eqb_eq in E. assert (j' = j) by lia. subst j'.
      f_equal. symmetry. now apply nth_error_nth.
  - rewrite filter_none; [reflexivity|]. intros [j' v] Hin. apply in_enum, nth_error_bound in Hin. cbn. apply Nat.eqb_neq. intro E.
    apply block_inj in E as (E & _); lia.
Qed.

(** * Columns *)
Lemma wrap32_small z : (-2147483648 <= z < 2147483648)%Z -> wrap32 z = z.
Proof. intro H. unfold wrap32. rewrite Z.mod_small by lia. lia. Qed.

Lemma look_ok gs g k : NoDup gs -> nth_error gs k = Some g -> forall s,
  (fix look (l : list Z) (k : Z) := match l with [] => None | h :: t => if (h =? Z.of_nat g)%Z then Some k else look t (k + 1)%Z end)
    (map Z.of_nat gs) s = Some (s + Z.of_nat k)%Z.
Proof.
  revert k. induction gs as [|h t IH]; intros k Hn Hk s; [destruct k; discriminate|]. inversion_clear Hn as [|? ? Hh Ht].
  cbn [map]. destruct k as [|k].
  - injection Hk as ->. rewrite Z.eqb_refl. f_equal. lia.
  - cbn in Hk. destruct (Z.eqb_spec (Z.of_nat h) (Z.of_nat g)) as [E|N].
    + exfalso. apply Hh. assert (h = g) by lia. subst. eapply nth_error_In; eauto.
    + rewrite (IH k Ht Hk). f_equal. lia.
Qed.

Lemma unpack_col_ok P maps1 r c g : maps_ok P maps1 -> narrow_columns P maps1 -> r < P -> local_to_global (maps1 r) c = Some g ->
  unpack_col (Z.of_nat (im_lo (maps1 r))) (Z.of_nat (size_local (maps1 r))) (map Z.of_nat (im_ghosts (maps1 r))) (Z.of_nat g) = Some (Z.of_nat c).
Proof.
  intros Hok Hn Hr Hc. pose proof (mo_range _ _ Hok r Hr) as Hrange. unfold unpack_col.
  assert (Hg : exists o, o < P /\ owns (maps1 o) g).
  { unfold local_to_global in Hc. destruct (Nat.ltb_spec c (size_local (maps1 r))) as [L|L].
    - injection Hc as <-. exists r. split; [exact Hr|]. unfold owns. unfold size_local in L. lia.
    - apply nth_error_In in Hc. destruct (ghost_owner P maps1 Hok r g Hr Hc) as (o & k & A & B & C & D & E). eauto. }
  destruct Hg as (o & Ho & Hw). unfold owns in Hw. pose proof (Hn o Ho) as Ho'. pose proof (Hn r Hr) as Hr'.
  rewrite wrap32_small by lia. unfold local_to_global in Hc. destruct (Nat.ltb_spec c (size_local (maps1 r))) as [L|L].
  - injection Hc as <-.
    replace ((Z.of_nat (im_lo (maps1 r) + c) - Z.of_nat (im_lo (maps1 r)) <? 0)%Z) with false by (symmetry; apply Z.ltb_ge; lia).
    replace ((Z.of_nat (size_local (maps1 r)) <=? Z.of_nat (im_lo (maps1 r) + c) - Z.of_nat (im_lo (maps1 r)))%Z) with false by (symmetry; apply Z.leb_gt; lia).
    cbn [orb]. f_equal. lia.
  - assert (Hno : ~ owns (maps1 r) g) by (eapply ghost_not_owned; eauto using nth_error_In).
    unfold owns in Hno. unfold size_local in *.
    replace ((Z.of_nat g - Z.of_nat (im_lo (maps1 r)) <? 0) || (Z.of_nat (im_hi (maps1 r) - im_lo (maps1 r)) <=? Z.of_nat g - Z.of_nat (im_lo (maps1 r))))%Z with true.
    + rewrite (look_ok _ _ _ (mo_once _ _ Hok r Hr) Hc). f_equal. lia.
    + symmetry. apply Bool.orb_true_iff. rewrite Z.ltb_lt, Z.leb_le. lia.
Qed.

(** Rows of the arrays. *)
Definition rowsof {T} (A : csr T) : list (list nat) :=
  match omap (fun i => slice_at (mt_cols A) (mt_rp A) i) (seq 0 (length (mt_rp A) - 1)) with Some l => l | None => [] end.
Lemma rowsof_ok {T} (A : csr T) : csr_ok A -> mt_cols A = concat (rowsof A) /\ mt_rp A = psums (map (@length nat) (rowsof A)) /\
  Forall (StronglySorted lt) (rowsof A) /\ length (mt_rp A) = S (length (rowsof A)).
Proof.
  intros (_ & _ & (rows & Ec & Er & Hs) & _).
  assert (E : rowsof A = rows).
  { unfold rowsof. rewrite Ec, Er, psums_length, map_length. replace (S (length rows) - 1) with (length rows) by lia.
    rewrite omap_map with (g := fun i => nth i rows []).
    - transitivity (map (fun x => x) rows); [|apply map_id]. apply map_seq_nth. intros k d Hd. now apply nth_error_nth.
    - intros i Hi. apply in_seq in Hi. apply slice_row. lia. }
  rewrite E, Er, psums_length, map_length. auto.
Qed.

Lemma gidx P maps r g i : maps_ok P maps -> r < P ->
  index_in g (global_indices (maps r)) = Some i <-> local_to_global (maps r) i = Some g.
Proof.
  intros Hok Hr. split; intro H.
  - apply index_in_some in H. now rewrite global_indices_nth in H.
  - destruct (index_in_in g (global_indices (maps r))) as (j & E).
    + apply (nth_error_In _ i). now rewrite global_indices_nth.
    + rewrite E. f_equal. apply index_in_some in E. rewrite global_indices_nth in E. eapply (l2g_inj P maps r); eauto.
Qed.
Lemma gidx_none P maps r g : maps_ok P maps -> r < P -> index_in g (global_indices (maps r)) = None -> forall i, local_to_global (maps r) i <> Some g.
Proof. intros Hok Hr H i E. apply (gidx P maps r g i Hok Hr) in E. congruence. Qed.

(** The dense form at a block and a component. *)
Lemma dense_R {T} (zero : T) (A : csr T) rows b0 b1 i c k0 k1 : mt_cols A = concat rows -> mt_rp A = psums (map (@length nat) rows) ->
  mt_bs0 A = b0 -> mt_bs1 A = b1 -> Forall (StronglySorted lt) rows -> k0 < b0 -> k1 < b1 ->
  dense zero A (i * b0 + k0) (c * b1 + k1) =
  match index_in c (R rows i) with
  | Some t => nth ((off rows i + t) * (b0 * b1) + (k0 * b1 + k1)) (mt_data A) zero
  | None => zero
  end.
Proof.
  intros Ec Er E0 E1 Hs H0 H1. destruct A as [a0 a1 cols rp data]. cbn in *. subst. rewrite dense_off by (try lia; assumption).
  rewrite !Nat.div_add_l, !Nat.div_small, !Nat.add_0_r by lia.
  rewrite (Nat.add_comm (i * b0)), (Nat.add_comm (c * b1)), !Nat.mod_add, !Nat.mod_small by lia.
  destruct (index_in c (R rows i)); [|reflexivity]. f_equal. nia.
Qed.

Section Rev.
Context {T : Type}.
Variables (zero one : T) (add mul sub : T -> T -> T) (opp : T -> T).
Hypothesis Rth : ring_theory zero one add mul sub opp eq.
Add Ring Tr : Rth.
Variables (P : nat) (maps0 maps1 : nat -> imap) (bs0 bs1 : nat) (mats : nat -> csr T).
Hypothesis Hok0 : maps_ok P maps0.
Hypothesis Hok1 : maps_ok P maps1.
Hypothesis Hnar : narrow_columns P maps1.
Hypothesis Hm : mats_ok P maps0 maps1 bs0 bs1 mats.
Notation ls0 q := (size_local (maps0 q)).
Notation ls1 q := (size_local (maps1 q)).
Notation ng0 q := (num_ghosts (maps0 q)).
Notation rws q := (rowsof (mats q)).
Notation bs2 := (bs0 * bs1).
Notation gh q k := (nth k (im_ghosts (maps0 q)) 0).
Notation ow q := (im_owners (maps0 q)).
Notation src q := (im_src (maps0 q)).
Definition gcol q c := match local_to_global (maps1 q) c with Some g => g | None => 0 end.
Definition Rr q k := R (rws q) (ls0 q + k).

Lemma rows_ok q : q < P -> mt_cols (mats q) = concat (rws q) /\ mt_rp (mats q) = psums (map (@length nat) (rws q)) /\
  Forall (StronglySorted lt) (rws q) /\ length (rws q) = ls0 q + ng0 q.
Proof.
  intro Hq. destruct (mk_csr _ _ _ _ _ _ Hm q Hq) as (Hc & _). destruct (rowsof_ok _ Hc) as (E1 & E2 & E3 & E4).
  repeat split; auto. pose proof (mk_rows _ _ _ _ _ _ Hm q Hq). lia.
Qed.
Lemma bs_ok q : q < P -> mt_bs0 (mats q) = bs0 /\ mt_bs1 (mats q) = bs1.
Proof. intro Hq. apply (mk_csr _ _ _ _ _ _ Hm q Hq). Qed.
Lemma data_ok q : q < P -> length (mt_data (mats q)) = length (concat (rws q)) * bs0 * bs1.
Proof.
  intro Hq. destruct (rows_ok q Hq) as (E & _). destruct (mk_csr _ _ _ _ _ _ Hm q Hq) as ((_ & _ & _ & Hl) & E0 & E1). rewrite E, E0, E1 in Hl. exact Hl.
Qed.
Lemma bs_pos q : q < P -> 0 < bs0 /\ 0 < bs1.
Proof. intro Hq. destruct (mk_csr _ _ _ _ _ _ Hm q Hq) as ((H0 & H1 & _) & E0 & E1). rewrite E0 in H0. rewrite E1 in H1. auto. Qed.

Lemma row_has_R q i c : q < P -> row_has (mats q) i c <-> In c (R (rws q) i).
Proof.
  intro Hq. destruct (rows_ok q Hq) as (E1 & E2 & E3 & E4). unfold row_has. rewrite E1, E2. split.
  - intros (l & E & H). destruct (lt_dec i (length (rws q))) as [L|L].
    + rewrite slice_row in E by exact L. injection E as <-. exact H.
    + rewrite slice_row_none in E by lia. discriminate.
  - intro H. exists (R (rws q) i). split; [|exact H]. apply slice_row. eapply in_R_lt; eauto.
Qed.

Lemma gcol_ok q i c : q < P -> In c (R (rws q) i) -> local_to_global (maps1 q) c = Some (gcol q c).
Proof.
  intros Hq Hc. destruct (rows_ok q Hq) as (E1 & _). assert (Hin : In c (mt_cols (mats q))) by (rewrite E1; eapply in_R_concat; eauto).
  apply (mk_cols _ _ _ _ _ _ Hm q c Hq) in Hin. apply (l2g_some (maps1 q) (mo_range _ _ Hok1 q Hq)) in Hin. destruct Hin as (g & E). unfold gcol. now rewrite E.
Qed.

(** What goes from [q] to [d]: pairs, and values. *)
Definition prs q k := map (fun c => (gh q k, gcol q c)) (Rr q k).
Definition Bi q := boxed (ow q) (prs q).
Definition block q p := map (fun j => nth (p * bs2 + j) (mt_data (mats q)) zero) (seq 0 bs2).
Definition vls q k := concat (map (fun t => block q (off (rws q) (ls0 q + k) + t)) (seq 0 (length (Rr q k)))).
Definition Bv q := boxed (ow q) (vls q).

Lemma ow_len q : q < P -> length (ow q) = ng0 q.
Proof. intro Hq. apply (mo_len _ _ Hok0 q Hq). Qed.
Lemma src_ok q : q < P -> StronglySorted lt (src q) /\ forall o, In o (ow q) -> In o (src q).
Proof. intro Hq. destruct (mo_src _ _ Hok0 q Hq) as (A & B). split; [exact A|]. intros o Ho. now apply B. Qed.

Lemma index_send_ok q : q < P -> index_send maps0 maps1 mats q =
  Some (concat (map (Bi q) (src q)), (map (fun d => length (Bi q d)) (src q), psums (map (fun d => length (Bi q d)) (src q)))).
Proof.
  intro Hq. destruct (src_ok q Hq) as (Hss & Hsin). unfold index_send. rewrite nr_map by assumption. cbn [obind]. rewrite map_length.
  rewrite omap_map with (g := fun k => (nr (src q) (nth k (ow q) 0), prs q k)).
  2:{ intros k Hk. apply in_seq in Hk. cbn in Hk. rewrite ow_len in Hk by exact Hq. destruct (rows_ok q Hq) as (E1 & E2 & _ & E4). rewrite nth_error_map_some.
      rewrite (nth_error_nth_some (ow q) k 0) by (rewrite ow_len; lia). cbn [option_map obind].
      rewrite (nth_error_nth_some (im_ghosts (maps0 q)) k 0) by (unfold num_ghosts in Hk; lia). cbn [obind].
      rewrite E1, E2, slice_row by lia. cbn [obind]. fold (Rr q k).
      rewrite omap_map with (g := fun c => (gh q k, gcol q c)); [reflexivity|].
      intros c Hc. pose proof (gcol_ok q _ c Hq Hc) as E. unfold local_to_global in E.
      destruct (Nat.ltb_spec c (ls1 q)) as [L|L]; cbn [obind]; [injection E as E; f_equal; f_equal; lia|]. rewrite E. reflexivity. }
  cbn [obind]. fold (its (src q) (ow q) (prs q)). rewrite its_fold by assumption. cbn [obind].
  fold (flat_items (its (src q) (ow q) (prs q))).
  destruct (its_place (0, 0) (src q) (ow q) (prs q) Hss Hsin) as (pos & E). fold (Bi q) in E |- *. rewrite E. reflexivity.
Qed.

(** The position at the owner [r] of an entry sent by [q]. *)
Definition lcol r g := match index_in g (global_indices (maps1 r)) with Some c => c | None => 0 end.
Definition tpos r (Gg : nat * nat) := pos (rws r) (fst Gg - im_lo (maps0 r)) (lcol r (snd Gg)).

Lemma lcol_ok r c g : r < P -> local_to_global (maps1 r) c = Some g -> lcol r g = c.
Proof.
  intros Hr Hc. unfold lcol. assert (Hin : In g (global_indices (maps1 r))) by (apply (nth_error_In _ c); rewrite global_indices_nth; exact Hc).
  destruct (index_in_in _ _ Hin) as (c' & E). rewrite E. apply index_in_some in E. rewrite global_indices_nth in E. eapply (l2g_inj P maps1 r); eauto.
Qed.

Lemma ghost_at q k : q < P -> k < ng0 q -> nth_error (im_ghosts (maps0 q)) k = Some (gh q k) /\
  nth k (ow q) 0 < P /\ nth k (ow q) 0 <> q /\ owns (maps0 (nth k (ow q) 0)) (gh q k).
Proof.
  intros Hq Hk. assert (Hg : nth_error (im_ghosts (maps0 q)) k = Some (gh q k)) by (apply nth_error_nth_some; exact Hk).
  split; [exact Hg|]. apply (mo_owner _ _ Hok0 q k); auto. apply nth_error_nth_some. now rewrite ow_len.
Qed.

Lemma sent_row q k r c : q < P -> k < ng0 q -> nth k (ow q) 0 = r -> In c (Rr q k) ->
  r < P /\ owns (maps0 r) (gh q k) /\ local_to_global (maps1 r) (lcol r (gcol q c)) = Some (gcol q c) /\
  In (lcol r (gcol q c)) (R (rws r) (gh q k - im_lo (maps0 r))).
Proof.
  intros Hq Hk Er Hc. destruct (ghost_at q k Hq Hk) as (Hg & Hr & _ & Hw). rewrite Er in *. split; [exact Hr|]. split; [exact Hw|].
  destruct (mk_ghost _ _ _ _ _ _ Hm q k _ r c (gcol q c) Hq Hg Hr Hw) as (c' & E & Hrow).
  - now apply row_has_R.
  - eapply gcol_ok; eauto.
  - rewrite (lcol_ok r c' _ Hr E). split; [exact E|]. now apply row_has_R.
Qed.

Lemma unpack_one_ok r q k c : q < P -> k < ng0 q -> nth k (ow q) 0 = r -> In c (Rr q k) ->
  unpack_one maps0 maps1 mats r (gh q k, gcol q c) = Some (tpos r (gh q k, gcol q c)).
Proof.
  intros Hq Hk Er Hc. destruct (sent_row q k r c Hq Hk Er Hc) as (Hr & Hw & Hl & Hin). unfold unpack_one. cbn [fst snd].
  unfold owns in Hw. replace ((im_lo (maps0 r) <=? gh q k) && (gh q k <? im_hi (maps0 r))) with true.
  2:{ symmetry. apply Bool.andb_true_iff. rewrite Nat.leb_le, Nat.ltb_lt. exact Hw. }
  rewrite (unpack_col_ok P maps1 r _ _ Hok1 Hnar Hr Hl). cbn [obind]. rewrite Nat2Z.id.
  destruct (rows_ok r Hr) as (E1 & E2 & E3 & E4). rewrite E1, E2. pose proof (in_R_lt _ _ _ Hin) as Hlt. rewrite row_of_ok by exact Hlt. cbn [obind].
  destruct (idx_ok (rws r) E3 _ _ Hin) as (-> & _). reflexivity.
Qed.

Lemma in_Bi q r Gg : q < P -> In Gg (Bi q r) -> exists k c, k < ng0 q /\ nth k (ow q) 0 = r /\ In c (Rr q k) /\ Gg = (gh q k, gcol q c).
Proof.
  intros Hq H. unfold Bi, boxed in H. apply in_concat in H as (l & Hl & H). apply in_map_iff in Hl as (k & <- & Hk). apply in_seq in Hk. cbn in Hk.
  rewrite ow_len in Hk by exact Hq. destruct (Nat.eqb_spec (nth k (ow q) 0) r) as [E|N]; [|destruct H].
  apply in_map_iff in H as (c & <- & Hc). exists k, c. repeat split; auto. lia.
Qed.

Lemma block_len q p : length (block q p) = bs2.
Proof. unfold block. now rewrite map_length, seq_length. Qed.

Lemma vls_len q k : length (vls q k) = length (prs q k) * bs2.
Proof.
  unfold vls, prs. rewrite map_length, <- lsum_concat_length, map_map. rewrite (map_ext _ (fun _ => bs2)) by (intro; apply block_len).
  generalize (length (Rr q k)) as n. intro n. generalize 0 as s. induction n as [|n IH]; intro s; [reflexivity|]. cbn [seq map]. rewrite lsum_cons, IH. lia.
Qed.

Lemma Bv_len q d : length (Bv q d) = length (Bi q d) * bs2.
Proof.
  unfold Bv, Bi, boxed. induction (seq 0 (length (ow q))) as [|k t IH]; [reflexivity|]. cbn [map concat]. rewrite !app_length, IH.
  destruct (_ =? d); [rewrite vls_len|cbn]; lia.
Qed.

Definition mc_of r := mkMC (map (nr (src r)) (ow r)) (psums (map (fun d => length (Bv r d)) (src r)))
  (psums (map (fun s => length (Bv s r)) (im_dest (maps0 r)))) (map (tpos r) (concat (map (fun s => Bi s r) (im_dest (maps0 r))))).

Lemma matrix_comm_ok r : r < P -> matrix_comm P maps0 maps1 mats r = Some (mc_of r).
Proof.
  intro Hr. destruct (src_ok r Hr) as (Hss & Hsin). unfold matrix_comm. rewrite nr_map by assumption. cbn [obind].
  rewrite index_send_ok by exact Hr. cbn [obind].
  rewrite (exchange_spec P _ _ _ Bi r (src_dest_graph P maps0 Hok0) Hr).
  2:{ intros s Hs. apply index_send_ok. apply (dest_in P maps0 Hok0) in Hs; [apply Hs|exact Hr]. }
  cbn [obind]. rewrite omap_map with (g := tpos r).
  2:{ intros Gg H. apply in_concat in H as (l & Hl & H). apply in_map_iff in Hl as (s & <- & Hs). apply (dest_in P maps0 Hok0) in Hs as (Hs & _); [|exact Hr].
      apply in_Bi in H as (k & c & Hk & Ek & Hc & ->); [|exact Hs]. now apply unpack_one_ok. }
  cbn [obind]. destruct (bs_ok r Hr) as (-> & ->). unfold mc_of. f_equal. f_equal.
  - rewrite map_psums_scale, map_map. f_equal. apply map_ext. intro. now rewrite Bv_len.
  - rewrite (map_ext _ (fun d => d * bs2)) by (intro; lia). rewrite map_psums_scale, map_map. f_equal. apply map_ext. intro. now rewrite Bv_len.
Qed.

Lemma row_slice q k : q < P -> k < ng0 q ->
  slice (mt_data (mats q)) (off (rws q) (ls0 q + k) * bs2) (off (rws q) (ls0 q + k + 1) * bs2) = Some (vls q k).
Proof.
  intros Hq Hk. destruct (rows_ok q Hq) as (E1 & E2 & E3 & E4).
  assert (El : off (rws q) (ls0 q + k + 1) = off (rws q) (ls0 q + k) + length (Rr q k)).
  { unfold off. replace (ls0 q + k + 1) with (S (ls0 q + k)) by lia. rewrite (lsum_firstn_S _ _ (length (Rr q k))); [reflexivity|].
    rewrite nth_error_map_some. unfold Rr, R. rewrite (nth_error_nth_some (rws q) (ls0 q + k) []) by lia. reflexivity. }
  assert (Hle : off (rws q) (ls0 q + k + 1) <= length (concat (rws q))).
  { unfold off. rewrite <- lsum_concat_length. rewrite <- (firstn_skipn (ls0 q + k + 1) (map (@length nat) (rws q))) at 2. rewrite lsum_app. lia. }
  apply slice_some. pose proof (data_ok q Hq) as Hd. split; [rewrite El; nia|]. split; [rewrite Hd, <- Nat.mul_assoc; apply Nat.mul_le_mono_r; exact Hle|].
  apply nth_error_ext. intro i. set (a := off (rws q) (ls0 q + k)) in *. rewrite El. replace ((a + length (Rr q k)) * bs2 - a * bs2) with (length (Rr q k) * bs2) by nia.
  pose proof (vls_len q k) as Hvl. unfold prs in Hvl. rewrite map_length in Hvl.
  destruct (lt_dec i (length (Rr q k) * bs2)) as [L|L].
  2:{ rewrite !(proj2 (nth_error_None _ _)); [reflexivity| |lia]. rewrite firstn_length. lia. }
  assert (Hb2 : 0 < bs2) by (destruct (Nat.eq_dec bs2 0) as [E|N]; [rewrite E in L; lia|lia]).
  rewrite nth_error_firstn by lia. rewrite nth_error_skipn.
  pose proof (Nat.div_mod_eq i bs2) as Di. assert (Hmod : i mod bs2 < bs2) by (apply Nat.mod_upper_bound; lia).
  assert (Ht : i / bs2 < length (Rr q k)) by (apply Nat.div_lt_upper_bound; lia).
  unfold vls. change (off (rws q) (ls0 q + k)) with a.
  pose proof (StackProofs.nth_concat (fun t => block q (a + t)) (seq 0 (length (Rr q k))) (i / bs2) (i / bs2) (i mod bs2)) as N.
  rewrite nth_error_seq in N by exact Ht. rewrite block_len in N. specialize (N eq_refl Hmod).
  assert (S0 : lsum (firstn (i / bs2) (map (fun x => length (block q (a + x))) (seq 0 (length (Rr q k))))) = i / bs2 * bs2).
  { rewrite (map_ext _ (fun _ => bs2)) by (intro; apply block_len). revert Ht. clear. generalize (i / bs2) as n, (length (Rr q k)) as m, 0 as s.
    induction n as [|n IH]; intros m s H; [reflexivity|]. destruct m as [|m]; [lia|]. cbn [seq map firstn]. rewrite lsum_cons, IH by lia. lia. }
  rewrite S0 in N. replace (i / bs2 * bs2 + i mod bs2) with i in N by lia. rewrite N. unfold block. rewrite nth_error_map_some, nth_error_seq by exact Hmod. cbn [option_map]. rewrite Nat.add_0_l, split_div. symmetry; apply nth_error_nth_some. rewrite Hd.
  assert (a * bs2 + i < (a + length (Rr q k)) * bs2) by (rewrite Nat.mul_add_distr_r; lia). rewrite El in Hle.
  apply (Nat.mul_le_mono_r _ _ bs2) in Hle. lia.
Qed.

Lemma value_send_ok q : q < P -> value_send zero P maps0 maps1 mats q =
  Some (concat (map (Bv q) (src q)), (map (fun d => length (Bv q d)) (src q), psums (map (fun d => length (Bv q d)) (src q)))).
Proof.
  intro Hq. destruct (src_ok q Hq) as (Hss & Hsin). unfold value_send. rewrite matrix_comm_ok by exact Hq. cbn [obind].
  unfold mc_of. cbn [mc_g2r mc_send_disp]. rewrite <- ow_len by exact Hq.
  rewrite omap_map with (g := fun k => (nr (src q) (nth k (ow q) 0), vls q k)).
  2:{ intros k Hk. apply in_seq in Hk. cbn in Hk. rewrite ow_len in Hk by exact Hq. destruct (rows_ok q Hq) as (E1 & E2 & _ & E4). rewrite nth_error_map_some.
      rewrite (nth_error_nth_some (ow q) k 0) by (rewrite ow_len; lia). cbn [option_map obind]. destruct (bs_ok q Hq) as (-> & ->).
      rewrite E2, !rp_nth by lia. cbn [obind]. rewrite row_slice by (try lia; exact Hq). reflexivity. }
  cbn [obind]. fold (its (src q) (ow q) (vls q)). fold (flat_items (its (src q) (ow q) (vls q))).
  destruct (its_place zero (src q) (ow q) (vls q) Hss Hsin) as (p & E). fold (Bv q) in E |- *. rewrite E. cbn [obind]. now rewrite adj_diff_psums.
Qed.

Lemma values_in r : r < P ->
  neigh_alltoallv P (fun q => im_dest (maps0 q)) (fun q => im_src (maps0 q)) (value_send zero P maps0 maps1 mats)
    (fun q => mc <- matrix_comm P maps0 maps1 mats q ;; Some (adj_diff (mc_recv_disp mc))) r
  = Some (concat (map (fun s => Bv s r) (im_dest (maps0 r)))).
Proof.
  intro Hr. apply (neigh_alltoallv_spec P _ _ _ _ Bv r (src_dest_graph P maps0 Hok0) Hr).
  - intros s Hs. apply value_send_ok. apply (dest_in P maps0 Hok0) in Hs; [apply Hs|exact Hr].
  - rewrite matrix_comm_ok by exact Hr. cbn [obind]. unfold mc_of. cbn [mc_recv_disp]. now rewrite adj_diff_psums.
Qed.

(** The updates at [r]: position and block of values. *)
Definition Lb r s := concat (map (fun k => if nth k (ow s) 0 =? r then
   map (fun t => (tpos r (gh s k, gcol s (nth t (Rr s k) 0)), block s (off (rws s) (ls0 s + k) + t))) (seq 0 (length (Rr s k))) else [])
   (seq 0 (length (ow s)))).
Definition Lall r := concat (map (Lb r) (im_dest (maps0 r))).

Lemma Lb_fst r s : map fst (Lb r s) = map (tpos r) (Bi s r).
Proof.
  unfold Lb, Bi, boxed. rewrite !concat_map, !map_map. f_equal. apply map_ext. intro k. destruct (_ =? r); [|reflexivity].
  unfold prs. rewrite !map_map. cbn [fst]. apply map_seq_nth. intros i d Hd. now rewrite (nth_error_nth _ _ 0 Hd).
Qed.
Lemma Lb_snd r s : concat (map snd (Lb r s)) = Bv s r.
Proof.
  unfold Lb, Bv, boxed. rewrite concat_map, map_map, concat_concat_map. f_equal. apply map_ext. intro k. destruct (_ =? r); [|reflexivity].
  rewrite map_map. reflexivity.
Qed.
Lemma Lall_fst r : map fst (Lall r) = map (tpos r) (concat (map (fun s => Bi s r) (im_dest (maps0 r)))).
Proof. unfold Lall. rewrite !concat_map, !map_map. f_equal. apply map_ext. intro. apply Lb_fst. Qed.
Lemma Lall_snd r : concat (map snd (Lall r)) = concat (map (fun s => Bv s r) (im_dest (maps0 r))).
Proof. unfold Lall. rewrite concat_map, map_map, concat_concat_map. f_equal. apply map_ext. intro. apply Lb_snd. Qed.
Lemma Lall_len r b : In b (Lall r) -> length (snd b) = bs2.
Proof.
  intro H. apply in_concat in H as (l & Hl & H). apply in_map_iff in Hl as (s & <- & _). apply in_concat in H as (l & Hl & H).
  apply in_map_iff in Hl as (k & <- & _). destruct (_ =? r); [|destruct H]. apply in_map_iff in H as (t & <- & _). apply block_len.
Qed.
Lemma Lall_pos r b : r < P -> In b (Lall r) -> fst b < length (concat (rws r)).
Proof.
  intros Hr H. apply (in_map fst) in H. rewrite Lall_fst in H. apply in_map_iff in H as (Gg & <- & H).
  apply in_concat in H as (l & Hl & H). apply in_map_iff in Hl as (s & <- & Hs). apply (dest_in P maps0 Hok0) in Hs as (Hs & _); [|exact Hr].
  apply in_Bi in H as (k & c & Hk & Ek & Hc & ->); [|exact Hs]. destruct (sent_row s k r c Hs Hk Ek Hc) as (_ & _ & _ & Hin).
  destruct (rows_ok r Hr) as (_ & _ & E3 & _). now apply pos_lt.
Qed.

(** Sums over ranks. *)
Notation tsum := (VectorOps.tsum T zero add).
Lemma tsum_zero {A} (f : A -> T) l : (forall x, In x l -> f x = zero) -> tsum (map f l) = zero.
Proof.
  induction l as [|x t IH]; intro H; [reflexivity|]. cbn [map]. rewrite tsum_cons, IH by (intros; apply H; now right).
  rewrite H by now left. ring.
Qed.
Lemma tsum_support (f : nat -> T) l m : NoDup l -> NoDup m -> incl l m -> (forall x, In x m -> ~ In x l -> f x = zero) ->
  tsum (map f m) = tsum (map f l).
Proof.
  intros Hl Hn Hi Hz. transitivity (tsum (map f (l ++ filter (fun x => negb (mem x l)) m))).
  - apply (tsum_perm T zero one add mul sub opp Rth). apply Permutation_map. apply NoDup_Permutation; [exact Hn| |].
    + apply NoDup_app_intro; [exact Hl|now apply NoDup_filter|]. intros x Hx H. apply filter_In in H as (_ & H).
      apply Bool.negb_true_iff in H. apply mem_iff in Hx. congruence.
    + intro x. rewrite in_app_iff, filter_In. split.
      * intro H. destruct (mem x l) eqn:E; [left; now apply mem_iff|right; auto].
      * intros [H|H]; [now apply Hi|apply H].
  - rewrite map_app, (tsum_app T zero one add mul sub opp Rth). rewrite (tsum_zero f (filter _ _)); [ring|].
    intros x H. apply filter_In in H as (H & E). apply Hz; [exact H|]. intro H'. apply mem_iff in H'. rewrite H' in E. discriminate.
Qed.

(** An entry at a rank that has the row. *)
Lemma entry_at A q G g i c k0 k1 : q < P -> local_to_global (maps0 q) i = Some G -> local_to_global (maps1 q) c = Some g ->
  entry zero maps0 maps1 bs0 bs1 A q G g k0 k1 = dense zero (A q) (i * bs0 + k0) (c * bs1 + k1).
Proof.
  intros Hq Hi Hc. unfold entry. rewrite (proj2 (gidx P maps0 q G i Hok0 Hq) Hi), (proj2 (gidx P maps1 q g c Hok1 Hq) Hc). reflexivity.
Qed.

Section At.
Variables (r G g c k0 k1 : nat).
Hypothesis Hr : r < P.
Hypothesis HG : owns (maps0 r) G.
Hypothesis Hc : local_to_global (maps1 r) c = Some g.
Notation i0 := (G - im_lo (maps0 r)).
Hypothesis Hin : In c (R (rws r) i0).
Hypothesis Hk0 : k0 < bs0.
Hypothesis Hk1 : k1 < bs1.
Notation jj := (k0 * bs1 + k1).

Lemma jj_lt : jj < bs2.
Proof. clear - Hk0 Hk1. nia. Qed.

Lemma tpos_iff s k c' : s < P -> k < ng0 s -> nth k (ow s) 0 = r -> In c' (Rr s k) ->
  (tpos r (gh s k, gcol s c') = pos (rws r) i0 c <-> gh s k = G /\ gcol s c' = g).
Proof.
  intros Hs Hk Ek Hc'. destruct (sent_row s k r c' Hs Hk Ek Hc') as (_ & Hw & Hl & Hin'). unfold tpos. cbn [fst snd]. split.
  - intro E. destruct (rows_ok r Hr) as (_ & _ & E3 & _). apply (pos_inj (rws r) E3) in E as (Ea & Eb); [|exact Hin'|exact Hin].
    unfold owns in *. split; [lia|]. rewrite Eb, Hc in Hl. congruence.
  - intros (-> & ->). rewrite (lcol_ok r c g Hr Hc). reflexivity.
Qed.

Lemma from_rank s : s < P -> s <> r ->
  tsum (concat (map (fun b => if fst b =? pos (rws r) i0 c then [nth jj (snd b) zero] else []) (Lb r s))) = entry zero maps0 maps1 bs0 bs1 mats s G g k0 k1.
Proof.
  intros Hs Hsr. unfold Lb. rewrite concat_map, concat_concat_map, map_map.
  set (F := fun k => concat (map _ (if nth k (ow s) 0 =? r then _ else []))).
  assert (HF : forall k, k < ng0 s -> (gh s k = G -> forall c', In c' (Rr s k) -> gcol s c' <> g) -> F k = []).
  { intros k Hk Hno. unfold F. destruct (Nat.eqb_spec (nth k (ow s) 0) r) as [E|N]; [|reflexivity]. rewrite map_map. apply concat_nil.
    intros t Ht. apply in_seq in Ht. cbn [fst snd]. destruct (Nat.eqb_spec (tpos r (gh s k, gcol s (nth t (Rr s k) 0))) (pos (rws r) i0 c)) as [E'|]; [|reflexivity].
    exfalso. assert (Hin' : In (nth t (Rr s k) 0) (Rr s k)) by (apply nth_In; lia). apply (tpos_iff s k _ Hs Hk E Hin') in E' as (E1 & E2). exact (Hno E1 _ Hin' E2). }
  rewrite ow_len by exact Hs. unfold entry. destruct (index_in G (global_indices (maps0 s))) as [i|] eqn:Ei.
  2:{ rewrite concat_nil; [reflexivity|]. intros k Hk. apply in_seq in Hk. apply HF; [lia|]. intro E. exfalso.
      destruct (ghost_at s k Hs) as (Hg & _); [lia|]. apply (gidx_none P maps0 s G Hok0 Hs Ei (ls0 s + k)). unfold local_to_global.
      destruct (Nat.ltb_spec (ls0 s + k) (ls0 s)); [lia|]. replace (ls0 s + k - ls0 s) with k by lia. congruence. }
  apply (gidx P maps0 s G i Hok0 Hs) in Ei.
  assert (Hi : ls0 s <= i /\ nth_error (im_ghosts (maps0 s)) (i - ls0 s) = Some G).
  { unfold local_to_global in Ei. destruct (Nat.ltb_spec i (ls0 s)) as [L|L]; [|auto]. exfalso. apply Hsr. apply (owner_unique P maps0 Hok0 s r G Hs Hr); [|exact HG].
    injection Ei as <-. unfold owns. unfold size_local in L. lia. }
  destruct Hi as (Li & Hi). set (k := i - ls0 s) in *. assert (Ei' : i = ls0 s + k) by lia. pose proof (nth_error_bound _ _ _ Hi) as Hk. fold (ng0 s) in Hk.
  assert (Egh : gh s k = G) by (apply nth_error_nth; exact Hi).
  destruct (ghost_at s k Hs Hk) as (_ & Ho & _ & Hw). rewrite Egh in Hw. pose proof (owner_unique P maps0 Hok0 _ _ G Ho Hr Hw HG) as Eo.
  assert (Hother : forall k', In k' (seq 0 (ng0 s)) -> k' <> k -> F k' = []).
  { intros k' Hk' N. apply in_seq in Hk'. apply HF; [lia|]. intro E. exfalso. apply N. destruct (ghost_at s k' Hs) as (Hg & _); [lia|]. rewrite E in Hg.
    apply (NoDup_nth_error_inj _ _ _ G (mo_once _ _ Hok0 s Hs) Hg Hi). }
  rewrite (concat_single F (seq 0 (ng0 s)) k); [|apply seq_NoDup|apply in_seq; lia|exact Hother].
  destruct (index_in g (global_indices (maps1 s))) as [c'|] eqn:Ec.
  2:{ rewrite HF; [reflexivity|exact Hk|]. intros _ c' Hc' E. apply (gidx_none P maps1 s g Hok1 Hs Ec c'). rewrite <- E. eapply gcol_ok; eauto. }
  apply (gidx P maps1 s g c' Hok1 Hs) in Ec.
  destruct (rows_ok s Hs) as (E1 & E2 & E3 & E4). destruct (bs_ok s Hs) as (B0 & B1).
  rewrite (dense_R zero (mats s) (rws s) bs0 bs1) by assumption. rewrite Ei'. fold (Rr s k).
  destruct (index_in c' (Rr s k)) as [t|] eqn:Et.
  2:{ rewrite HF; [reflexivity|exact Hk|]. intros _ c'' Hc'' E. assert (c'' = c') as ->.
      { apply (l2g_inj P maps1 s _ _ g Hok1 Hs); [|exact Ec]. rewrite <- E. eapply gcol_ok; eauto. }
      destruct (index_in_in _ _ Hc'') as (? & ?). congruence. }
  apply index_in_some in Et. pose proof (nth_error_bound _ _ _ Et) as Lt.
  unfold F. rewrite Eo, Nat.eqb_refl, map_map. cbn [fst snd].
  rewrite (concat_single _ _ t); [|apply seq_NoDup|apply in_seq; lia|].
  - assert (Hgc : gcol s c' = g) by (unfold gcol; now rewrite Ec). rewrite (nth_error_nth _ _ 0 Et).
    rewrite (proj2 (Nat.eqb_eq _ _) (proj2 (tpos_iff s k c' Hs Hk Eo (nth_error_In _ _ Et)) (conj Egh Hgc))).
    rewrite tsum_cons, tsum_nil. unfold block. rewrite (nth_indep _ zero (nth ((off (rws s) (ls0 s + k) + t) * bs2 + 0) (mt_data (mats s)) zero)) by (rewrite map_length, seq_length; apply jj_lt).
    rewrite (map_nth (fun j => nth ((off (rws s) (ls0 s + k) + t) * bs2 + j) (mt_data (mats s)) zero)). rewrite seq_nth by apply jj_lt. cbn [plus]. ring.
  - intros t' Ht' N. apply in_seq in Ht'. destruct (Nat.eqb_spec (tpos r (gh s k, gcol s (nth t' (Rr s k) 0))) (pos (rws r) i0 c)) as [E|]; [|reflexivity].
    exfalso. assert (Hin' : In (nth t' (Rr s k) 0) (Rr s k)) by (apply nth_In; lia). apply (tpos_iff s k _ Hs Hk Eo Hin') in E as (_ & E). apply N.
    assert (Ex : nth t' (Rr s k) 0 = c') by (apply (l2g_inj P maps1 s _ _ g Hok1 Hs); [rewrite <- E; eapply gcol_ok; eauto|exact Ec]).
    apply (NoDup_nth_error_inj (Rr s k) _ _ c'); [apply SS_lt_NoDup, R_sorted, E3|rewrite <- Ex; apply nth_error_nth_some; lia|exact Et].
Qed.
End At.

Lemma entry_foreign A r s G g k0 k1 : r < P -> s < P -> s <> r -> owns (maps0 r) G -> ~ In s (im_dest (maps0 r)) -> entry zero maps0 maps1 bs0 bs1 A s G g k0 k1 = zero.
Proof.
  intros Hr Hs N HG Hd. unfold entry. destruct (index_in G (global_indices (maps0 s))) as [i|] eqn:E; [|reflexivity]. exfalso.
  apply (gidx P maps0 s G i Hok0 Hs) in E. unfold local_to_global in E. destruct (Nat.ltb_spec i (ls0 s)) as [L|L].
  - apply N. apply (owner_unique P maps0 Hok0 s r G Hs Hr); [|exact HG]. injection E as <-. unfold owns. unfold size_local in L. lia.
  - apply Hd. apply (dest_iff P maps0 Hok0 r s Hr). split; [exact Hs|]. exists G. split; [eapply nth_error_In; eauto|exact HG].
Qed.

Lemma dest_nodup r : r < P -> NoDup (im_dest (maps0 r)) /\ ~ In r (im_dest (maps0 r)) /\ forall s, In s (im_dest (maps0 r)) -> s < P.
Proof.
  intro Hr. split; [|split].
  - apply SS_lt_NoDup. apply (mo_dest _ _ Hok0 r Hr).
  - intro H. apply (dest_iff P maps0 Hok0 r r Hr) in H as (_ & G & H & H'). exact (ghost_not_owned P maps0 Hok0 r G Hr H H').
  - intros s H. apply (dest_in P maps0 Hok0 r s Hr) in H. apply H.
Qed.

Lemma sum_ranks A r G g k0 k1 : r < P -> owns (maps0 r) G ->
  tsum (map (fun q => entry zero maps0 maps1 bs0 bs1 A q G g k0 k1) (seq 0 P)) =
  add (entry zero maps0 maps1 bs0 bs1 A r G g k0 k1) (tsum (map (fun q => entry zero maps0 maps1 bs0 bs1 A q G g k0 k1) (im_dest (maps0 r)))).
Proof.
  intros Hr HG. destruct (dest_nodup r Hr) as (Hn & Hnr & Hlt). rewrite (tsum_support _ (r :: im_dest (maps0 r))).
  - reflexivity.
  - now constructor.
  - apply seq_NoDup.
  - intros x [<-|H]; apply in_seq; [lia|]. apply Hlt in H. lia.
  - intros x Hx Hno. apply in_seq in Hx. apply (entry_foreign A r); auto; [lia| |]; intro H; apply Hno; [left; congruence|now right].
Qed.

(** ** scatter_rev *)
Lemma rev_data r : r < P -> exists data', length data' = length (mt_data (mats r)) /\
  scatter_rev zero add P maps0 maps1 mats r = Some (mkCSR bs0 bs1 (mt_cols (mats r)) (mt_rp (mats r))
     (firstn (off (rws r) (ls0 r) * bs2) data' ++ repeat zero (length data' - off (rws r) (ls0 r) * bs2))) /\
  forall p j, p < length (concat (rws r)) -> j < bs2 -> nth (p * bs2 + j) data' zero =
    add (nth (p * bs2 + j) (mt_data (mats r)) zero)
        (tsum (concat (map (fun s => concat (map (fun b => if fst b =? p then [nth j (snd b) zero] else []) (Lb r s))) (im_dest (maps0 r))))).
Proof.
  intro Hr. destruct (rows_ok r Hr) as (E1 & E2 & E3 & E4). destruct (bs_ok r Hr) as (B0 & B1). pose proof (data_ok r Hr) as Hd.
  set (U := concat (map (fun b => map (fun jv => (fst b * bs2 + fst jv, snd jv)) (enum (snd b))) (Lall r))).
  destruct (updates_ok add U (mt_data (mats r))) as (data' & Ed & Hl & Hv).
  { intros p v H. unfold U in H. apply in_concat in H as (l & Hl & H). apply in_map_iff in Hl as (b & <- & Hb). apply in_map_iff in H as ((j & w) & E & Hj).
    injection E as <- <-. apply in_enum, nth_error_bound in Hj. rewrite (Lall_len r b Hb) in Hj. pose proof (Lall_pos r b Hr Hb) as Lp. cbn [fst snd]. rewrite Hd.
    assert (Hm' : (fst b + 1) * bs2 <= length (concat (rws r)) * bs2) by (apply Nat.mul_le_mono_r; lia). lia. }
  exists data'. split; [exact Hl|]. split.
  - unfold scatter_rev. rewrite matrix_comm_ok, values_in by exact Hr. cbn [obind]. rewrite B0, B1. unfold mc_of. cbn [mc_unpack].
    rewrite <- Lall_fst, <- Lall_snd. rewrite map_length.
    replace (length (concat (map snd (Lall r))) =? length (Lall r) * bs2) with true.
    2:{ symmetry. apply Nat.eqb_eq. apply blocks_length, Lall_len. }
    rewrite <- (map_length fst (Lall r)). rewrite (blocks_fold add bs2 (Lall r)) by apply Lall_len. fold U. rewrite Ed. cbn [obind].
    rewrite E2 at 1. rewrite rp_nth by lia. cbn [obind]. reflexivity.
  - intros p j Hp Hj. assert (Hlt : p * bs2 + j < length (mt_data (mats r))).
    { rewrite Hd. assert (Hm' : (p + 1) * bs2 <= length (concat (rws r)) * bs2) by (apply Nat.mul_le_mono_r; lia). lia. }
    specialize (Hv _ _ (nth_error_nth_some _ _ zero Hlt)). rewrite (nth_error_nth _ _ zero Hv). rewrite (fold_left_tsum T zero one add mul sub opp Rth).
    f_equal. unfold U. rewrite (blocks_vals zero) by (assumption || apply Lall_len). unfold Lall. rewrite concat_map, concat_concat_map, map_map. reflexivity.
Qed.

Definition rev_mat r := match scatter_rev zero add P maps0 maps1 mats r with Some A => A | None => mats r end.

Lemma nth_cut n (l : list T) m p : nth p (firstn n l ++ repeat zero m) zero = if p <? n then nth p l zero else zero.
Proof.
  destruct (Nat.ltb_spec p n) as [L|L].
  - destruct (lt_dec p (length l)) as [L'|L'].
    + rewrite app_nth1 by (rewrite firstn_length; lia). rewrite <- (firstn_skipn n l) at 2. rewrite app_nth1 by (rewrite firstn_length; lia). reflexivity.
    + rewrite firstn_all2 by lia. rewrite app_nth2, nth_repeat by lia. symmetry. apply nth_overflow. lia.
  - destruct (lt_dec p (length (firstn n l))) as [L'|L']; [rewrite firstn_length in L'; lia|]. rewrite app_nth2 by lia. apply nth_repeat.
Qed.

Lemma off_mono q i j : i <= j -> off (rws q) i <= off (rws q) j.
Proof.
  intro H. unfold off. rewrite <- (firstn_skipn i (firstn j (map (@length nat) (rws q)))), lsum_app, firstn_firstn, Nat.min_l by exact H. lia.
Qed.
Lemma off_S q i : i < length (rws q) -> off (rws q) (S i) = off (rws q) i + length (R (rws q) i).
Proof.
  intro H. unfold off. apply lsum_firstn_S. rewrite nth_error_map_some. unfold R. now rewrite (nth_error_nth_some (rws q) i []) by exact H.
Qed.

Lemma rev_owned r G g k0 k1 : r < P -> owns (maps0 r) G -> k0 < bs0 -> k1 < bs1 ->
  entry zero maps0 maps1 bs0 bs1 rev_mat r G g k0 k1 = tsum (map (fun q => entry zero maps0 maps1 bs0 bs1 mats q G g k0 k1) (seq 0 P)).
Proof.
  intros Hr HG Hk0 Hk1. rewrite (sum_ranks mats r G g k0 k1 Hr HG). destruct (rev_data r Hr) as (data' & Hl & Erev & Hdata).
  destruct (rows_ok r Hr) as (E1 & E2 & E3 & E4). destruct (bs_ok r Hr) as (B0 & B1). destruct (dest_nodup r Hr) as (Hn & Hnr & Hlt).
  set (i := G - im_lo (maps0 r)). assert (Hi : i < ls0 r) by (unfold owns in HG; unfold size_local; lia).
  assert (Ei : local_to_global (maps0 r) i = Some G) by (rewrite l2g_own by exact Hi; unfold owns in HG; f_equal; lia).
  assert (Eidx : index_in G (global_indices (maps0 r)) = Some i) by (now apply (gidx P maps0 r G i Hok0 Hr)).
  unfold entry at 1 2. rewrite Eidx.
  assert (Hforeign : (forall c, local_to_global (maps1 r) c = Some g -> ~ In c (R (rws r) i)) ->
    tsum (map (fun q => entry zero maps0 maps1 bs0 bs1 mats q G g k0 k1) (im_dest (maps0 r))) = zero).
  { intro Hno. apply tsum_zero. intros s Hs. pose proof (Hlt s Hs) as HsP. unfold entry. destruct (index_in G (global_indices (maps0 s))) as [i'|] eqn:Ei'; [|reflexivity].
    destruct (index_in g (global_indices (maps1 s))) as [c'|] eqn:Ec'; [|reflexivity].
    apply (gidx P maps0 s G i' Hok0 HsP) in Ei'. apply (gidx P maps1 s g c' Hok1 HsP) in Ec'. destruct (rows_ok s HsP) as (S1 & S2 & S3 & S4). destruct (bs_ok s HsP) as (C0 & C1).
    rewrite (dense_R zero (mats s) (rws s) bs0 bs1) by assumption. destruct (index_in c' (R (rws s) i')) as [t|] eqn:Et; [|reflexivity]. exfalso.
    apply index_in_some, nth_error_In in Et. unfold local_to_global in Ei'. destruct (Nat.ltb_spec i' (ls0 s)) as [L|L].
    - apply Hnr. assert (s = r) as <-; [|exact Hs]. apply (owner_unique P maps0 Hok0 s r G HsP Hr); [|exact HG]. injection Ei' as <-. unfold owns. unfold size_local in L. lia.
    - destruct (mk_ghost _ _ _ _ _ _ Hm s (i' - ls0 s) G r c' g HsP Ei' Hr HG) as (c & Ec & Hrow); [|exact Ec'|].
      + apply row_has_R; [exact HsP|]. replace (ls0 s + (i' - ls0 s)) with i' by lia. exact Et.
      + apply (row_has_R r i c Hr) in Hrow. exact (Hno c Ec Hrow). }
  destruct (index_in g (global_indices (maps1 r))) as [c|] eqn:Ec.
  2:{ rewrite Hforeign; [ring|]. intros c H. exfalso. exact (gidx_none P maps1 r g Hok1 Hr Ec c H). }
  apply (gidx P maps1 r g c Hok1 Hr) in Ec.
  unfold rev_mat. rewrite Erev. rewrite (dense_R zero (mkCSR _ _ _ _ _) (rws r) bs0 bs1) by (try assumption; reflexivity).
  rewrite (dense_R zero (mats r) (rws r) bs0 bs1) by assumption. cbn [mt_data].
  destruct (index_in c (R (rws r) i)) as [t|] eqn:Et.
  2:{ rewrite Hforeign; [ring|]. intros c' H Hin. assert (c' = c) as -> by (apply (l2g_inj P maps1 r _ _ g Hok1 Hr H Ec)). destruct (index_in_in _ _ Hin) as (? & ?). congruence. }
  assert (Hin : In c (R (rws r) i)) by (apply index_in_some, nth_error_In in Et; exact Et).
  assert (Hp : off (rws r) i + t = pos (rws r) i c) by (unfold pos, idx; now rewrite Et).
  assert (Hjj : k0 * bs1 + k1 < bs2) by (now apply jj_lt).
  rewrite nth_cut. replace (_ <? _) with true.
  2:{ symmetry. apply Nat.ltb_lt. apply index_in_some, nth_error_bound in Et. pose proof (off_mono r (S i) (ls0 r)) as Hmono. rewrite off_S in Hmono by lia.
      assert (Hm' : (off (rws r) i + t + 1) * bs2 <= off (rws r) (ls0 r) * bs2) by (apply Nat.mul_le_mono_r; lia). lia. }
  rewrite Hp, Hdata; [|now apply pos_lt|exact Hjj]. f_equal. rewrite (tsum_concat T zero one add mul sub opp Rth), map_map. f_equal. apply map_ext_in. intros s Hs.
  apply (from_rank r G g c k0 k1); auto. intro E. subst s. exact (Hnr Hs).
Qed.

Lemma rev_ghost_rows r I J : r < P -> ls0 r * bs0 <= I -> dense zero (rev_mat r) I J = zero.
Proof.
  intros Hr HI. destruct (rev_data r Hr) as (data' & Hl & Erev & Hdata). destruct (rows_ok r Hr) as (E1 & E2 & E3 & E4). destruct (bs_pos r Hr) as (P0 & P1).
  unfold rev_mat. rewrite Erev, E1, E2. rewrite dense_off by assumption. destruct (index_in _ _) as [t|] eqn:Et; [|reflexivity]. rewrite nth_cut. destruct (Nat.ltb_spec (((off (rws r) (I / bs0) + t) * bs0 + I mod bs0) * bs1 + J mod bs1) (off (rws r) (ls0 r) * bs2)) as [L|L]; [|reflexivity].
  exfalso. assert (Hq : ls0 r <= I / bs0) by (apply Nat.div_le_lower_bound; lia). pose proof (off_mono r _ _ Hq) as Hmono.
  assert (Hm' : off (rws r) (ls0 r) * bs2 <= off (rws r) (I / bs0) * bs2) by (apply Nat.mul_le_mono_r; lia). nia.
Qed.

Lemma rev_conserved G g k0 k1 : k0 < bs0 -> k1 < bs1 ->
  tsum (map (fun q => entry zero maps0 maps1 bs0 bs1 rev_mat q G g k0 k1) (seq 0 P)) =
  tsum (map (fun q => entry zero maps0 maps1 bs0 bs1 mats q G g k0 k1) (seq 0 P)).
Proof.
  intros Hk0 Hk1.
  destruct (existsb (fun r => (im_lo (maps0 r) <=? G) && (G <? im_hi (maps0 r))) (seq 0 P)) eqn:Eo.
  - apply existsb_exists in Eo as (r & Hr & Ho). apply in_seq in Hr. apply Bool.andb_true_iff in Ho. rewrite Nat.leb_le, Nat.ltb_lt in Ho.
    assert (HG : owns (maps0 r) G) by exact Ho. assert (HrP : r < P) by lia. rewrite <- (rev_owned r G g k0 k1 HrP HG Hk0 Hk1). rewrite (sum_ranks rev_mat r G g k0 k1 HrP HG).
    rewrite tsum_zero; [ring|]. intros s Hs. destruct (dest_nodup r HrP) as (_ & Hnr & Hlt). pose proof (Hlt s Hs) as HsP.
    unfold entry. destruct (index_in G (global_indices (maps0 s))) as [i'|] eqn:Ei'; [|reflexivity].
    destruct (index_in g (global_indices (maps1 s))) as [c'|]; [|reflexivity]. apply rev_ghost_rows; [exact HsP|].
    apply (gidx P maps0 s G i' Hok0 HsP) in Ei'. unfold local_to_global in Ei'. destruct (Nat.ltb_spec i' (ls0 s)) as [L|L]; [|nia].
    exfalso. apply Hnr. assert (s = r) as <-; [|exact Hs]. apply (owner_unique P maps0 Hok0 s r G HsP HrP); [|exact HG]. injection Ei' as <-. unfold owns. unfold size_local in L. lia.
  - rewrite !tsum_zero; [reflexivity| |]; intros q Hq; apply in_seq in Hq; unfold entry; (destruct (index_in G (global_indices (maps0 q))) as [i|] eqn:E; [|reflexivity]); exfalso;
      (assert (HqP : q < P) by lia); apply (gidx P maps0 q G i Hok0 HqP) in E; (assert (Hex : exists o, o < P /\ owns (maps0 o) G);
        [unfold local_to_global in E; destruct (Nat.ltb_spec i (ls0 q)) as [L|L];
          [injection E as <-; exists q; split; [exact HqP|]; unfold owns; unfold size_local in L; lia
          |apply nth_error_In in E; destruct (ghost_owner P maps0 Hok0 q G HqP E) as (o & k & A & B & C & D); eauto]
        |destruct Hex as (o & Ho & Hw); assert (true = false); [|discriminate]; rewrite <- Eo; symmetry; apply existsb_exists; exists o; split; [apply in_seq; lia|];
         apply Bool.andb_true_iff; rewrite Nat.leb_le, Nat.ltb_lt; exact Hw]).
Qed.

Lemma scatter_rev_statement : exists mats', 
  (forall r, r < P -> scatter_rev zero add P maps0 maps1 mats r = Some (mats' r) /\ mt_bs0 (mats' r) = bs0 /\ mt_bs1 (mats' r) = bs1 /\
     mt_cols (mats' r) = mt_cols (mats r) /\ mt_rp (mats' r) = mt_rp (mats r) /\ length (mt_data (mats' r)) = length (mt_data (mats r))) /\
  (forall r G g k0 k1, r < P -> owns (maps0 r) G -> k0 < bs0 -> k1 < bs1 ->
     entry zero maps0 maps1 bs0 bs1 mats' r G g k0 k1 = total T zero add P (fun q => entry zero maps0 maps1 bs0 bs1 mats q G g k0 k1)) /\
  (forall r I J, r < P -> ls0 r * bs0 <= I -> dense zero (mats' r) I J = zero) /\
  (forall G g k0 k1, k0 < bs0 -> k1 < bs1 ->
     total T zero add P (fun q => entry zero maps0 maps1 bs0 bs1 mats' q G g k0 k1) = total T zero add P (fun q => entry zero maps0 maps1 bs0 bs1 mats q G g k0 k1)).
Proof.
  exists rev_mat. split; [|split; [|split]].
  - intros r Hr. destruct (rev_data r Hr) as (data' & Hl & Erev & _). unfold rev_mat. rewrite Erev. cbn [mt_bs0 mt_bs1 mt_cols mt_rp mt_data].
    do 5 (split; [reflexivity|]). rewrite app_length, firstn_length, repeat_length, <- Hl.
    assert (off (rws r) (ls0 r) * bs2 <= length data'); [|lia]. rewrite Hl, (data_ok r Hr), <- Nat.mul_assoc. apply Nat.mul_le_mono_r.
    destruct (rows_ok r Hr) as (_ & _ & _ & E4). pose proof (off_mono r (ls0 r) (length (rws r))) as Ho. unfold off in *. rewrite <- lsum_concat_length.
    rewrite (firstn_all2 (n := length (rws r))) in Ho by (rewrite map_length; lia). apply Ho. lia.
  - intros. now apply rev_owned.
  - intros. now apply rev_ghost_rows.
  - intros. now apply rev_conserved.
Qed.
End Rev.
