From Coq Require Import NArith.
From Verif Require Import Base BaseProofs Algo AlgoProofs World WorldProofs IndexMap IndexMapSpec IndexMapProofs ImSharedProofs
  Sort SortSpec SortProofs BucketProofs ScattererProofs TagsProofs RoundTrip TransProofs MatMulComm RefUtils.
Open Scope nat_scope.

(** ** adjust_indices *)
Section Adjust.
Variables (P : nat) (maps : nat -> imap) (n : nat -> nat).
Hypothesis Hok : maps_ok P maps.

Lemma adjust_offsets_ok r : r < P -> adjust_offsets P maps n r = Some (map (exscan n) (im_src (maps r))).
Proof.
  intro Hr. unfold adjust_offsets. rewrite (neigh_alltoall_spec P _ _ _ (fun s _ => exscan n s) r (graph_ok_sym _ _ _ (src_dest_graph P maps Hok)) Hr); [reflexivity|]. intros s Hs. reflexivity.
Qed.

Definition adj (o g : nat) : nat := g + exscan n o.
Lemma adjust_ok r : r < P -> adjust_indices P maps n r =
  Some (map (adj r) (seq (im_lo (maps r)) (size_local (maps r))) ++ map (fun go => adj (snd go) (fst go)) (combine (im_ghosts (maps r)) (im_owners (maps r)))).
Proof.
  intro Hr. unfold adjust_indices. rewrite (adjust_offsets_ok r Hr). cbn [obind].
  rewrite (omap_map _ (fun go => adj (snd go) (fst go))); [reflexivity|].
  intros (g, o) Hin. cbn [fst snd]. destruct (mo_src _ _ Hok r Hr) as (Hs & Hsrc). rewrite (find_sorted_spec _ _ Hs).
  assert (Ho : In o (im_src (maps r))) by (apply Hsrc; exact (in_combine_r _ _ _ _ Hin)).
  destruct (index_in_in _ _ Ho) as (k & Ek). rewrite Ek. cbn [obind]. rewrite nth_error_map_some, (index_in_some _ _ _ Ek). reflexivity.
Qed.

Lemma adj_lo r : r < P -> exscan (fun q => size_local (maps q) + n q) r = adj r (im_lo (maps r)).
Proof.
  intro Hr. unfold adj. rewrite (lo_is_sum P maps Hok r Hr). unfold exscan. induction (seq 0 r) as [|a l IH]; [reflexivity|]. cbn [map]. rewrite !lsum_cons. lia.
Qed.
End Adjust.

Lemma adjust_statement P maps n : maps_ok P maps ->
  let lo := fun r => lsum (map (fun q => size_local (maps q) + n q) (seq 0 r)) in
  exists out, (forall r, r < P -> adjust_indices P maps n r = Some (out r)) /\
    (forall r, r < P -> length (out r) = size_local (maps r) + num_ghosts (maps r)) /\
    (forall r i, r < P -> i < size_local (maps r) -> nth_error (out r) i = Some (lo r + i)) /\
    (forall r i o j g, r < P -> o < P -> local_to_global (maps r) i = Some g -> owns (maps o) g -> j = g - im_lo (maps o) ->
       nth_error (out r) i = nth_error (out o) j) /\
    (forall r s i j, r < P -> s < P -> i < length (out r) -> j < length (out s) ->
       nth_error (out r) i = nth_error (out s) j <-> local_to_global (maps r) i = local_to_global (maps s) j).
Proof.
  intros Hok lo. pose (out := fun r => map (adj n r) (seq (im_lo (maps r)) (size_local (maps r))) ++ map (fun go => adj n (snd go) (fst go)) (combine (im_ghosts (maps r)) (im_owners (maps r)))).
  exists out.
  assert (Hlo : forall r, r < P -> lo r = adj n r (im_lo (maps r))) by (intros r Hr; exact (adj_lo P maps n Hok r Hr)).
  assert (Hnth : forall r i g, r < P -> local_to_global (maps r) i = Some g -> exists o, o < P /\ owns (maps o) g /\ nth_error (out r) i = Some (adj n o g)).
  { intros r i g Hr Hg. unfold local_to_global in Hg. unfold out. destruct (Nat.ltb_spec i (size_local (maps r))) as [Hi|Hi].
    - injection Hg as <-. exists r. split; [exact Hr|]. split; [unfold owns, size_local in *; lia|]. rewrite nth_error_app1 by (rewrite map_length, seq_length; exact Hi). rewrite nth_error_map_some, nth_error_seq by exact Hi. reflexivity.
    - pose proof (nth_error_bound _ _ _ Hg) as Hb. destruct (nth_error_lt (im_owners (maps r)) (i - size_local (maps r))) as (o & Eo); [rewrite (mo_len _ _ Hok r Hr); exact Hb|].
      destruct (mo_owner _ _ Hok r _ _ _ Hr Hg Eo) as (Ho & _ & Hw). exists o. split; [exact Ho|]. split; [exact Hw|].
      rewrite nth_error_app2 by (rewrite map_length, seq_length; exact Hi). rewrite map_length, seq_length, nth_error_map_some.
      rewrite TransProofs.combine_nth_error, Hg, Eo. reflexivity. }
  assert (Hlen : forall r, r < P -> length (out r) = size_local (maps r) + num_ghosts (maps r)).
  { intros r Hr. unfold out. rewrite app_length, !map_length, seq_length, combine_length, (mo_len _ _ Hok r Hr), Nat.min_id. reflexivity. }
  split; [intros r Hr; exact (adjust_ok P maps n Hok r Hr)|]. split; [exact Hlen|]. split; [|split].
  - intros r i Hr Hi. unfold out. rewrite nth_error_app1 by (rewrite map_length, seq_length; exact Hi). rewrite nth_error_map_some, nth_error_seq by exact Hi. cbn [option_map]. rewrite (Hlo r Hr). unfold adj. f_equal. lia.
  - intros r i o j g Hr Ho Hg Hw ->. destruct (Hnth r i g Hr Hg) as (o' & Ho' & Hw' & E). rewrite E. rewrite (owner_unique P maps Hok o' o g Ho' Ho Hw' Hw). unfold out.
    assert (Hj : g - im_lo (maps o) < size_local (maps o)) by (unfold owns, size_local in *; lia).
    rewrite nth_error_app1 by (rewrite map_length, seq_length; exact Hj). rewrite nth_error_map_some, nth_error_seq by exact Hj. cbn [option_map]. do 2 f_equal. unfold owns in Hw. lia.
  - intros r s i j Hr Hs Hi Hj. rewrite Hlen in Hi, Hj by assumption.
    destruct (proj2 (l2g_some (maps r) (mo_range _ _ Hok r Hr) i) Hi) as (g & Hg). destruct (proj2 (l2g_some (maps s) (mo_range _ _ Hok s Hs) j) Hj) as (g' & Hg'). rewrite Hg, Hg'.
    destruct (Hnth r i g Hr Hg) as (o & Ho & Hw & E). destruct (Hnth s j g' Hs Hg') as (o' & Ho' & Hw' & E'). rewrite E, E'. split; intro H.
    + injection H as H. f_equal. unfold adj in H. destruct (Nat.lt_trichotomy o o') as [L|[->|L]]; [|lia|].
      * pose proof (lo_mono P maps Hok o o' L Ho'). pose proof (exscan_mono n o o'). unfold owns in *. lia.
      * pose proof (lo_mono P maps Hok o' o L Ho). pose proof (exscan_mono n o' o). unfold owns in *. lia.
    + injection H as ->. now rewrite (owner_unique P maps Hok o o' g' Ho Ho' Hw Hw').
Qed.

(** ** Tags *)
Lemma nth_seq_id {A} (l : list A) d : map (fun i => nth i l d) (seq 0 (length l)) = l.
Proof. rewrite (map_seq_nth _ (fun x => x) l); [apply map_id|]. intros i a Ha. now rewrite (nth_error_nth _ _ d Ha). Qed.

Lemma children_ok num pairs : Forall (fun kv => fst kv < num) pairs ->
  exists data offs, children num pairs = Some (data, offs) /\ forall p, p < num -> slice_at data offs p = Some (vals p pairs).
Proof.
  intro HF. unfold children. rewrite count_keys_spec by (apply Forall_map; exact HF). cbn [obind]. rewrite map_vals_counts.
  set (cnt := map (fun k => length (vals k pairs)) (seq 0 num)).
  assert (Hsum : lsum cnt = length pairs).
  { unfold cnt. rewrite <- (vals_map_seq_total num pairs HF), <- lsum_concat_length, map_map. reflexivity. }
  destruct (place_all num pairs (psums cnt) (repeat 0 (last (psums cnt) 0)) HF) as (pos' & E & _).
  - intros k Hk. apply psums_offk. lia.
  - rewrite repeat_length, last_psums. exact Hsum.
  - rewrite E. cbn [obind]. eexists. eexists. split; [reflexivity|]. intros p Hp. unfold cnt.
    replace (map (fun k => length (vals k pairs)) (seq 0 num)) with (map (@length nat) (map (fun k => vals k pairs) (seq 0 num))) by (now rewrite map_map).
    apply slice_at_concat. rewrite nth_error_map_some, nth_error_seq by exact Hp. reflexivity.
Qed.

Lemma lci_ok original offset n : Permutation original (seq offset n) ->
  exists lci, local_cell_index original offset = Some lci /\ length lci = n /\ forall i c, nth_error original i = Some (offset + c) -> nth_error lci c = Some i.
Proof.
  intro HP. assert (Hn : length original = n) by (rewrite (Permutation_length HP), seq_length; reflexivity).
  assert (HN : NoDup original) by (apply (Permutation_NoDup (Permutation_sym HP)), seq_NoDup).
  unfold local_cell_index. rewrite Hn.
  destruct (ofold_prefix_ind (fun lci i => o <- nth_error original i ;; if o <? offset then None else upd lci (o - offset) i)
    (fun p lci => length lci = n /\ forall i c, In i p -> nth_error original i = Some (offset + c) -> nth_error lci c = Some i) (seq 0 n) (repeat 0 n)) as (lci & E & Hl & HI).
  - split; [apply repeat_length|]. intros i c [].
  - intros p i q lci Hs (Hl & HI). assert (Hi : i < n) by (assert (In i (seq 0 n)) by (rewrite Hs; apply in_or_app; right; now left); apply in_seq in H; lia).
    destruct (nth_error_lt original i) as (o & Eo); [lia|]. rewrite Eo. cbn [obind].
    assert (Ho : In o (seq offset n)) by (apply (Permutation_in _ HP), (nth_error_In _ _ Eo)). apply in_seq in Ho.
    destruct (Nat.ltb_spec o offset); [lia|]. destruct (upd_some lci (o - offset) i) as (lci' & E'); [lia|]. exists lci'. split; [exact E'|].
    split; [rewrite (upd_length _ _ _ _ E'); exact Hl|]. intros i' c Hin Ec. rewrite (upd_nth _ _ _ _ _ E'). apply in_app_or in Hin as [Hin|[->|[]]].
    + destruct (Nat.eqb_spec c (o - offset)) as [Ex|Ex].
      * rewrite (proj2 (Nat.eqb_eq _ _)) by lia. f_equal. apply (NoDup_nth_error_inj original i i' o HN Eo). rewrite Ec. f_equal. lia.
      * rewrite (proj2 (Nat.eqb_neq _ _)) by lia. now apply HI.
    + rewrite Eo in Ec. injection Ec as ->. rewrite (proj2 (Nat.eqb_eq _ _)) by lia. reflexivity.
  - exists lci. split; [exact E|]. split; [exact Hl|]. intros i c Hc. apply HI; [|exact Hc]. apply in_seq. pose proof (nth_error_bound _ _ _ Hc). lia.
Qed.

Lemma sort_tags_ok is vs m : length is = length vs -> Forall (fun i => i < m) is -> (Z.of_nat m <= 2 ^ 31)%Z -> length is <= m ->
  exists is' vs', sort_tags is vs = Some (is', vs') /\ length is' = length vs' /\ Permutation (combine is vs) (combine is' vs') /\ StronglySorted le is'.
Proof.
  intros Hl HF Hm Hlen. unfold sort_tags. assert (Hnz : forall x, nth x (map Z.of_nat is) 0%Z = Z.of_nat (nth x is 0)) by (intro x; exact (map_nth Z.of_nat is 0 x)).
  destruct (radix_sort_signed_correct 32 8 (fun i => nth i (map Z.of_nat is) 0%Z) (seq 0 (length vs))) as (order & E & HP & HS & _).
  - reflexivity.
  - reflexivity.
  - intros x _. unfold in_signed. change (2 ^ Z.of_N (32 - 1))%Z with (2 ^ 31)%Z. rewrite (Hnz x).
    assert (H : (Z.of_nat (nth x is 0%nat) < 2 ^ 31 \/ Z.of_nat (nth x is 0%nat) = 0)%Z).
    { destruct (nth_in_or_default x is 0) as [Hin| ->]; [left|now right]. rewrite Forall_forall in HF. specialize (HF _ Hin). lia. } lia.
  - rewrite seq_length. change (2 ^ 32)%N with (Z.to_N (2 ^ 32)). lia.
  - rewrite E. cbn [obind]. assert (Hin : forall i, In i order -> i < length vs).
    { intros i Hi. apply (Permutation_in _ (Permutation_sym HP)) in Hi. apply in_seq in Hi. lia. }
    rewrite (omap_map _ (fun i => nth i is 0)) by (intros i Hi; apply nth_error_nth'; rewrite Hl; now apply Hin). cbn [obind].
    rewrite (omap_map _ (fun i => nth i vs 0%Z)) by (intros i Hi; apply nth_error_nth'; now apply Hin). cbn [obind].
    eexists. eexists. split; [reflexivity|]. split; [now rewrite !map_length|]. split.
    + assert (Ec : forall l, combine (map (fun i => nth i is 0) l) (map (fun i => nth i vs 0%Z) l) = map (fun i => (nth i is 0, nth i vs 0%Z)) l) by (intro l; induction l as [|a l IH]; cbn; [reflexivity|now rewrite IH]).
      rewrite Ec. rewrite <- (Permutation_map _ HP). rewrite <- Ec. rewrite (nth_seq_id vs 0%Z). rewrite <- Hl. rewrite (nth_seq_id is 0). reflexivity.
    + clear -HS Hnz. induction HS as [|a l _ IH HF]; cbn [map]; constructor; [exact IH|]. apply Forall_map. eapply Forall_impl; [|exact HF]. cbn beta. intros b Hb. rewrite !(Hnz _) in Hb. lia.
Qed.

Lemma NoDup_concat {A B} (L : A -> list B) l : NoDup l -> (forall p, In p l -> NoDup (L p)) -> (forall p q k, In k (L p) -> In k (L q) -> p = q) -> NoDup (concat (map L l)).
Proof.
  intros HN HL HD. induction HN as [|a l Ha HN IH]; cbn [map concat]; [constructor|]. apply NoDup_app_intro; [apply HL; now left|apply IH; intros; apply HL; now right|].
  intros k Hk Hin. apply in_concat in Hin as (x & Hx & Hkx). apply in_map_iff in Hx as (q & <- & Hq). rewrite (HD a q k Hk Hkx) in Ha. contradiction.
Qed.

(** The part common to both functions: [L p] are the children of parent [p]. *)
Lemma collect_ok (L : nat -> list nat) (get : nat -> option (list nat)) indices values m :
  length indices = length values -> NoDup indices -> (forall p, In p indices -> get p = Some (L p)) ->
  (forall p, In p indices -> NoDup (L p)) -> (forall p q k, In k (L p) -> In k (L q) -> p = q) -> (forall p k, In p indices -> In k (L p) -> k < m) -> (Z.of_nat m <= 2 ^ 31)%Z ->
  exists is vs, ('(is, vs) <- ofold (fun '(is, vs) i => p <- nth_error indices i ;; v <- nth_error values i ;; l <- get p ;; Some (is ++ l, vs ++ repeat v (length l))) (seq 0 (length indices)) ([], []) ;; sort_tags is vs) = Some (is, vs) /\
    length is = length vs /\ StronglySorted lt is /\ forall k v, In (k, v) (combine is vs) <-> exists p, In (p, v) (combine indices values) /\ In k (L p).
Proof.
  intros Hl HN Hget HNL HD Hm Hmax.
  assert (G : forall n, n <= length indices -> ofold (fun '(is, vs) i => p <- nth_error indices i ;; v <- nth_error values i ;; l <- get p ;; Some (is ++ l, vs ++ repeat v (length l))) (seq 0 n) ([], [])
    = Some (concat (map L (firstn n indices)), concat (map (fun pv => repeat (snd pv) (length (L (fst pv)))) (firstn n (combine indices values))))).
  { induction n as [|n IH]; intro Hn; [reflexivity|]. rewrite seq_S, ofold_app, IH by lia. cbn [obind ofold plus].
    destruct (nth_error_lt indices n) as (p & Ep); [lia|]. destruct (nth_error_lt values n) as (v & Ev); [lia|]. rewrite Ep, Ev. cbn [obind]. rewrite (Hget p (nth_error_In _ _ Ep)). cbn [obind].
    rewrite (MatMulComm.firstn_S_nth _ _ _ Ep). assert (Ec : nth_error (combine indices values) n = Some (p, v)) by (rewrite TransProofs.combine_nth_error, Ep, Ev; reflexivity). rewrite (MatMulComm.firstn_S_nth _ _ _ Ec). rewrite !map_app, !concat_app. cbn [map concat fst snd]. rewrite !app_nil_r. reflexivity. }
  rewrite (G _ (le_n _)). rewrite firstn_all, firstn_all2 by (rewrite combine_length; lia). cbn [obind].
  set (is := concat (map L indices)). set (vs := concat _).
  assert (Hc : combine is vs = concat (map (fun pv => map (fun k => (k, snd pv)) (L (fst pv))) (combine indices values)) /\ length is = length vs).
  { unfold is, vs. clear -Hl. revert values Hl. induction indices as [|p t IH]; intros [|v w] Hl; try discriminate; [split; reflexivity|]. cbn [map combine concat fst snd]. injection Hl as Hl. destruct (IH w Hl) as (E & E').
    assert (Ea : forall (a : list nat) (b c : list Z) d, combine (a ++ d) (repeat v (length a) ++ c) = map (fun k => (k, v)) a ++ combine d c).
    { intros a b c d. induction a as [|x a IHa]; cbn; [reflexivity|]. f_equal. exact IHa. }
    split; [rewrite (Ea _ []), E; reflexivity|]. rewrite !app_length, repeat_length, E'. reflexivity. }
  destruct Hc as (Hc & Hlis).
  assert (HNis : NoDup is) by (apply NoDup_concat; assumption).
  assert (HFm : Forall (fun i => i < m) is).
  { apply Forall_forall. intros k Hk. apply in_concat in Hk as (x & Hx & Hkx). apply in_map_iff in Hx as (p & <- & Hp). exact (Hm p k Hp Hkx). }
  assert (Hlm : length is <= m).
  { rewrite <- (seq_length m 0). apply NoDup_incl_length; [exact HNis|]. intros k Hk. rewrite Forall_forall in HFm. apply in_seq. specialize (HFm k Hk). lia. }
  destruct (sort_tags_ok is vs m Hlis HFm Hmax Hlm) as (is' & vs' & E & El & HP & HS). exists is', vs'. split; [exact E|]. split; [exact El|]. split.
  - assert (HP' : Permutation is is').
    { rewrite <- (map_fst_combine is vs) by lia. rewrite <- (map_fst_combine is' vs') by lia. now apply Permutation_map. }
    assert (HN' : NoDup is') by (exact (Permutation_NoDup HP' HNis)). clear -HS HN'. induction HS as [|a l HS IH HF]; constructor; inversion HN'; subst; [now apply IH|].
    apply Forall_forall. intros b Hb. rewrite Forall_forall in HF. specialize (HF b Hb). assert (a <> b) by (intros ->; contradiction). lia.
  - intros k v. split; intro H.
    + apply (Permutation_in _ (Permutation_sym HP)) in H. rewrite Hc in H. apply in_concat in H as (x & Hx & Hkx). apply in_map_iff in Hx as ((p, v') & <- & Hp). cbn [fst snd] in Hkx. apply in_map_iff in Hkx as (k' & E' & Hk). injection E' as -> ->. now exists p.
    + destruct H as (p & Hp & Hk). apply (Permutation_in _ HP). rewrite Hc. apply in_concat. exists (map (fun k => (k, v)) (L p)). split; [|apply in_map_iff; now exists k]. apply in_map_iff. now exists (p, v).
Qed.

Lemma vals_NoDup p (l : list (nat * nat)) : NoDup (map snd l) -> NoDup (vals p l).
Proof.
  unfold vals. induction l as [|a l IH]; cbn; [constructor|]. intro H. inversion H; subst. destruct (fst a =? p); cbn; [constructor|]; auto.
  intro Hin. apply H2. apply in_map_iff in Hin as (x & E & Hx). apply filter_In in Hx as (Hx & _). rewrite <- E. now apply in_map.
Qed.

Lemma orig_pos original offset n c : Permutation original (seq offset n) -> c < n -> exists i, nth_error original i = Some (offset + c).
Proof. intros HP Hc. apply In_nth_error. apply (Permutation_in _ (Permutation_sym HP)), in_seq. lia. Qed.

Lemma transfer_cell_ok num_cells original offset cell indices values :
  Permutation original (seq offset (length cell)) -> Forall (fun p => p < num_cells) cell -> (Z.of_nat (length cell) <= 2 ^ 31)%Z ->
  length indices = length values -> NoDup indices -> Forall (fun p => p < num_cells) indices ->
  exists is vs, transfer_cell_meshtag true false num_cells original offset cell indices values = Some (is, vs) /\ length is = length vs /\ StronglySorted lt is /\
    forall k v, In (k, v) (combine is vs) <->
      exists c p, nth_error original k = Some (offset + c) /\ nth_error cell c = Some p /\ In (p, v) (combine indices values).
Proof.
  intros HP HC Hmax Hl HN HI. unfold transfer_cell_meshtag. cbn [negb]. destruct (lci_ok _ _ _ HP) as (lci & E & Hll & Hlci). rewrite E. cbn [obind].
  set (pairs := map (fun c => (nth c cell 0, nth c lci 0)) (seq 0 (length cell))).
  rewrite (omap_map _ (fun c => (nth c cell 0, nth c lci 0))).
  2:{ intros c Hc. apply in_seq in Hc. rewrite (nth_error_nth' cell 0) by lia. rewrite (nth_error_nth' lci 0) by lia. reflexivity. }
  fold pairs. cbn [obind].
  assert (HF : Forall (fun kv => fst kv < num_cells) pairs).
  { apply Forall_map, Forall_forall. intros c Hc. apply in_seq in Hc. cbn [fst]. rewrite Forall_forall in HC. apply HC, nth_In. lia. }
  assert (Hin : forall p k, In (p, k) pairs <-> exists c, nth_error original k = Some (offset + c) /\ nth_error cell c = Some p).
  { intros p k. unfold pairs. rewrite in_map_iff. split.
    - intros (c & Ec & Hc). apply in_seq in Hc. injection Ec as <- <-. exists c. destruct (orig_pos _ _ _ c HP) as (i & Ei); [lia|]. pose proof (Hlci _ _ Ei) as El. rewrite (nth_error_nth _ _ 0 El). split; [exact Ei|]. apply nth_error_nth'. lia.
    - intros (c & Ek & Ec). exists c. split; [|apply in_seq; pose proof (nth_error_bound _ _ _ Ec); lia]. rewrite (nth_error_nth _ _ 0 Ec), (nth_error_nth _ _ 0 (Hlci _ _ Ek)). reflexivity. }
  destruct (children_ok num_cells pairs HF) as (data & offs & Ech & Hs). rewrite Ech. cbn [obind].
  assert (HNs : NoDup (map snd pairs)).
  { unfold pairs. rewrite map_map. cbn [snd]. replace (length cell) with (length lci). rewrite nth_seq_id.
    apply NoDup_nth_error. intros a b Ha Eab. destruct (orig_pos _ _ _ a HP) as (i & Ei); [lia|]. assert (Hb : b < length lci) by (apply nth_error_Some; rewrite <- Eab; apply nth_error_Some; exact Ha). destruct (orig_pos _ _ _ b HP) as (j & Ej); [lia|].
    rewrite (Hlci _ _ Ei), (Hlci _ _ Ej) in Eab. assert (i = j) as -> by congruence. rewrite Ei in Ej. injection Ej. lia. }
  destruct (collect_ok (fun p => vals p pairs) (slice_at data offs) indices values (length cell)) as (is & vs & Er & El & HS & HX); try assumption.
  - intros p Hp. apply Hs. rewrite Forall_forall in HI. now apply HI.
  - intros p _. now apply vals_NoDup.
  - intros p q k Hk Hk'. apply vals_in in Hk, Hk'. apply Hin in Hk as (c & E1 & E2). apply Hin in Hk' as (c' & E1' & E2'). rewrite E1 in E1'. injection E1' as E1'. assert (c = c') by lia. subst. congruence.
  - intros p k _ Hk. apply vals_in, Hin in Hk as (c & E1 & _). apply nth_error_bound in E1. rewrite (Permutation_length HP), seq_length in E1. exact E1.
  - exists is, vs. split; [exact Er|]. split; [exact El|]. split; [exact HS|]. intros k v. rewrite HX. split.
    + intros (p & Hp & Hk). apply vals_in, Hin in Hk as (c & E1 & E2). now exists c, p.
    + intros (c & p & E1 & E2 & Hp). exists p. split; [exact Hp|]. apply vals_in, Hin. now exists c.
Qed.

(** Facet [k] of the new mesh lies on facet [p] of the old mesh, as recorded by [facet]. *)
Definition facet_child tdim (cf cf1 : list (list nat)) (original : list nat) offset (cell : list nat) (facet : list Z) (p k : nat) : Prop :=
  exists c pc fs lc rf j fi, nth_error cell c = Some pc /\ nth_error cf pc = Some fs /\ nth_error original lc = Some (offset + c) /\ nth_error cf1 lc = Some rf /\
    j <= tdim /\ nth_error facet (c * S tdim + j) = Some (Z.of_nat fi) /\ nth_error fs fi = Some p /\ nth_error rf j = Some k.

Lemma transfer_facet_ok tdim num_facets cf cf1 original offset cell facet indices values m :
  Permutation original (seq offset (length cell)) ->
  Forall (fun pc => exists fs, nth_error cf pc = Some fs /\ length fs = S tdim /\ Forall (fun f => f < num_facets) fs) cell ->
  (forall lc, lc < length cell -> exists rf, nth_error cf1 lc = Some rf /\ length rf = S tdim /\ Forall (fun k => k < m) rf) -> (Z.of_nat m <= 2 ^ 31)%Z ->
  length facet = length cell * S tdim -> Forall (fun f => (-1 <= f <= Z.of_nat tdim)%Z) facet ->
  (forall p q k, facet_child tdim cf cf1 original offset cell facet p k -> facet_child tdim cf cf1 original offset cell facet q k -> p = q) ->
  length indices = length values -> NoDup indices -> Forall (fun p => p < num_facets) indices ->
  exists is vs, transfer_facet_meshtag false tdim num_facets (Some cf) (Some cf1) original offset cell facet indices values = Some (is, vs) /\ length is = length vs /\ StronglySorted lt is /\
    forall k v, In (k, v) (combine is vs) <-> exists p, facet_child tdim cf cf1 original offset cell facet p k /\ In (p, v) (combine indices values).
Proof.
  intros HP HC H1 Hmax Hlf HFf Huniq Hl HN HI. unfold transfer_facet_meshtag. cbn [obind]. destruct (lci_ok _ _ _ HP) as (lci & E & Hll & Hlci). rewrite E. cbn [obind].
  set (item := fun c j => let fidx := nth (c * S tdim + j) facet 0%Z in
     if (fidx =? -1)%Z then [] else [(nth (Z.to_nat fidx) (nth (nth c cell 0) cf []) 0, nth j (nth (nth c lci 0) cf1 []) 0)]).
  set (pairs := map (fun c => concat (map (item c) (seq 0 (S tdim)))) (seq 0 (length cell))).
  assert (Hcell : forall c, c < length cell -> exists pc fs lc rf, nth_error cell c = Some pc /\ nth_error cf pc = Some fs /\ nth_error lci c = Some lc /\ nth_error cf1 lc = Some rf /\ length fs = S tdim /\ Forall (fun f => f < num_facets) fs /\ length rf = S tdim /\ Forall (fun k => k < m) rf /\ nth_error original lc = Some (offset + c)).
  { intros c Hc. destruct (nth_error_lt cell c Hc) as (pc & Ep). rewrite Forall_forall in HC. destruct (HC pc (nth_error_In _ _ Ep)) as (fs & Ef & Lf & Ff).
    destruct (orig_pos _ _ _ c HP Hc) as (lc & Eo). assert (Hlc : lc < length cell) by (apply nth_error_bound in Eo; rewrite (Permutation_length HP), seq_length in Eo; exact Eo).
    destruct (H1 lc Hlc) as (rf & Er & Lr & Fr). exists pc, fs, lc, rf. rewrite (Hlci _ _ Eo). auto 10. }
  assert (Hfac : forall c j, c < length cell -> j <= tdim -> exists f, nth_error facet (c * S tdim + j) = Some f /\ (-1 <= f <= Z.of_nat tdim)%Z).
  { intros c j Hc Hj. destruct (nth_error_lt facet (c * S tdim + j)) as (f & Ef).
    - rewrite Hlf. pose proof (Nat.mul_le_mono_r (S c) (length cell) (S tdim) Hc). cbn [Nat.mul] in H. lia.
    - exists f. split; [exact Ef|]. rewrite Forall_forall in HFf. apply HFf, (nth_error_In _ _ Ef). }
  rewrite (omap_map _ (fun c => concat (map (item c) (seq 0 (S tdim))))).
  2:{ intros c Hc. apply in_seq in Hc. destruct (Hcell c) as (pc & fs & lc & rf & E1 & E2 & E3 & E4 & L2 & F2 & L4 & F4 & _); [lia|]. rewrite E1. cbn [obind]. rewrite E2. cbn [obind]. rewrite E3. cbn [obind]. rewrite E4. cbn [obind].
      rewrite (omap_map _ (item c)); [reflexivity|]. intros j Hj. apply in_seq in Hj. destruct (Hfac c j) as (f & Ef & Hf); [lia|lia|]. rewrite Ef. cbn [obind].
      unfold item. rewrite (nth_error_nth _ _ 0%Z Ef). cbv zeta. destruct (Z.eqb_spec f (-1)) as [->|Hn]; [reflexivity|]. destruct (Z.ltb_spec f 0); [lia|].
      rewrite (nth_error_nth _ _ 0 E1), (nth_error_nth _ _ [] E2), (nth_error_nth _ _ 0 E3), (nth_error_nth _ _ [] E4).
      rewrite (nth_error_nth' fs 0) by lia. cbn [obind]. rewrite (nth_error_nth' rf 0) by lia. reflexivity. }
  fold pairs. cbn [obind].
  assert (Hin : forall p k, In (p, k) (concat pairs) <-> facet_child tdim cf cf1 original offset cell facet p k).
  { intros p k. unfold pairs. split.
    - intro H. apply in_concat in H as (x & Hx & Hk). apply in_map_iff in Hx as (c & <- & Hc). apply in_seq in Hc. apply in_concat in Hk as (y & Hy & Hk). apply in_map_iff in Hy as (j & <- & Hj). apply in_seq in Hj.
      destruct (Hcell c) as (pc & fs & lc & rf & E1 & E2 & E3 & E4 & L2 & F2 & L4 & F4 & E5); [lia|]. destruct (Hfac c j) as (f & Ef & Hf); [lia|lia|].
      unfold item in Hk. rewrite (nth_error_nth _ _ 0%Z Ef) in Hk. cbv zeta in Hk. destruct (Z.eqb_spec f (-1)) as [Hm1|Hn]; [destruct Hk|]. destruct Hk as [Hk|[]].
      rewrite (nth_error_nth _ _ 0 E1), (nth_error_nth _ _ [] E2), (nth_error_nth _ _ 0 E3), (nth_error_nth _ _ [] E4) in Hk. injection Hk as <- <-.
      exists c, pc, fs, lc, rf, j, (Z.to_nat f). do 4 (split; [assumption|]). split; [lia|]. split; [rewrite Z2Nat.id by lia; exact Ef|]. split; apply nth_error_nth'; lia.
    - intros (c & pc & fs & lc & rf & j & fi & E1 & E2 & E5 & E4 & Hj & Ef & Ep & Ek). pose proof (Hlci _ _ E5) as E3. apply in_concat. exists (concat (map (item c) (seq 0 (S tdim)))). split; [apply in_map_iff; exists c; split; [reflexivity|]; apply in_seq; pose proof (nth_error_bound _ _ _ E1); lia|].
      apply in_concat. exists (item c j). split; [apply in_map; apply in_seq; lia|]. unfold item. rewrite (nth_error_nth _ _ 0%Z Ef). cbv zeta. destruct (Z.eqb_spec (Z.of_nat fi) (-1)) as [X|_]; [lia|]. left.
      rewrite (nth_error_nth _ _ 0 E1), (nth_error_nth _ _ [] E2), (nth_error_nth _ _ 0 E3), (nth_error_nth _ _ [] E4), Nat2Z.id, (nth_error_nth _ _ 0 Ep), (nth_error_nth _ _ 0 Ek). reflexivity. }
  assert (HF : Forall (fun kv => fst kv < num_facets) (concat pairs)).
  { apply Forall_forall. intros (p, k) Hk. apply Hin in Hk as (c & pc & fs & lc & rf & j & fi & E1 & E2 & _ & _ & _ & _ & Ep & _). cbn [fst].
    rewrite Forall_forall in HC. destruct (HC pc (nth_error_In _ _ E1)) as (fs' & Ef & _ & Ff). rewrite E2 in Ef. injection Ef as <-. rewrite Forall_forall in Ff. apply Ff, (nth_error_In _ _ Ep). }
  destruct (children_ok num_facets (concat pairs) HF) as (data & offs & Ech & Hs). rewrite Ech. cbn [obind].
  rewrite (ofold_ext _ (fun '(is, vs) i => p <- nth_error indices i ;; v <- nth_error values i ;; l <- option_map sort_uniq (slice_at data offs p) ;; Some (is ++ l, vs ++ repeat v (length l)))).
  2:{ intros (is, vs) i _. destruct (nth_error indices i) as [p|]; [|reflexivity]. cbn [obind]. destruct (nth_error values i) as [v|]; [|reflexivity]. cbn [obind]. destruct (slice_at data offs p); reflexivity. }
  destruct (collect_ok (fun p => sort_uniq (vals p (concat pairs))) (fun p => option_map sort_uniq (slice_at data offs p)) indices values m) as (is & vs & Er & El & HS & HX); try assumption.
  - intros p Hp. rewrite Hs; [reflexivity|]. rewrite Forall_forall in HI. now apply HI.
  - intros p _. apply sort_uniq_NoDup.
  - intros p q k Hk Hk'. apply sort_uniq_in, vals_in, Hin in Hk. apply sort_uniq_in, vals_in, Hin in Hk'. exact (Huniq p q k Hk Hk').
  - intros p k _ Hk. apply sort_uniq_in, vals_in, Hin in Hk as (c & pc & fs & lc & rf & j & fi & E1 & E2 & E5 & E4 & _ & _ & _ & Ek).
    assert (Hlc : lc < length cell) by (apply nth_error_bound in E5; rewrite (Permutation_length HP), seq_length in E5; exact E5). destruct (H1 lc Hlc) as (rf' & Er & _ & Fr). rewrite E4 in Er. injection Er as <-. rewrite Forall_forall in Fr. apply Fr, (nth_error_In _ _ Ek).
  - exists is, vs. split; [exact Er|]. split; [exact El|]. split; [exact HS|]. intros k v. rewrite HX. split.
    + intros (p & Hp & Hk). apply sort_uniq_in, vals_in, Hin in Hk. now exists p.
    + intros (p & Hk & Hp). exists p. split; [exact Hp|]. now apply sort_uniq_in, vals_in, Hin.
Qed.
