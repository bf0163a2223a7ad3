From Verif Require Import Base BaseProofs BucketProofs AdjList AdjListSpec.

(** ** Construction from rows *)

Lemma adj_make_psums {A} (data : list A) l :
  lsum l = length data -> adj_make data (psums l) = Some (mkAdj data (psums l)).
Proof.
  intro H. unfold adj_make. destruct (rev_psums l) as (t & ->). now rewrite H, Nat.eqb_refl.
Qed.

Lemma adj_of_rows_eq {A} (rows : list (list A)) :
  adj_of_rows rows = mkAdj (concat rows) (psums (map (@length A) rows)).
Proof. unfold adj_of_rows. now rewrite fold_offsets, fold_concat. Qed.

Lemma stores_concat {A} (rows : list (list A)) :
  stores (mkAdj (concat rows) (psums (map (@length A) rows))) rows.
Proof.
  repeat split.
  - unfold num_nodes. cbn. rewrite psums_length, map_length. lia.
  - intros i row H. unfold links. cbn. now apply slice_at_concat.
  - intros i H. unfold links, slice_at. cbn [al_array al_offsets].
    destruct (nth_error (psums (map (length (A:=A)) rows)) i); [|reflexivity]. cbn [obind].
    replace (nth_error (psums (map (length (A:=A)) rows)) (S i)) with (@None nat); [reflexivity|].
    symmetry. apply nth_error_None. rewrite psums_length, map_length. lia.
Qed.

Lemma adj_of_rows_stores {A} (rows : list (list A)) : stores (adj_of_rows rows) rows.
Proof. rewrite adj_of_rows_eq. apply stores_concat. Qed.

Lemma adj_of_rows_array {A} (rows : list (list A)) : al_array (adj_of_rows rows) = concat rows.
Proof. now rewrite adj_of_rows_eq. Qed.

Lemma adj_make_iff {A} (data : list A) offsets l :
  adj_make data offsets = Some l <->
  offsets <> [] /\ last offsets 0 = length data /\ l = mkAdj data offsets.
Proof.
  unfold adj_make. destruct offsets as [|o os] eqn:E.
  - cbn. split; [discriminate|]. intros (H & _). now destruct H.
  - rewrite <- E. assert (N : offsets <> []) by now rewrite E.
    destruct (rev_last offsets 0 N) as (t & Hr). rewrite Hr.
    destruct (Nat.eqb_spec (last offsets 0) (length data)) as [Eq|Ne].
    + split; [intro H; injection H as <-; auto|]. intros (_ & _ & ->). reflexivity.
    + split; [discriminate|]. intros (_ & H & _). contradiction.
Qed.

(** [(data, offsets)] with increasing offsets starting at zero: the rows tile the data. *)
Lemma adj_make_rows {A} (data : list A) offsets l :
  adj_make data offsets = Some l -> hd_error offsets = Some 0 -> Sorted le offsets ->
  exists rows, stores l rows /\ concat rows = data.
Proof.
  intros H Hh Hs. apply adj_make_iff in H as (Hn & Hl & ->).
  destruct offsets as [|a os]; [now destruct Hn|]. injection Hh as ->.
  pose proof (psums_diffs os 0 Hs) as HP. fold (psums (diffs (0 :: os))) in HP.
  destruct (chop data (diffs (0 :: os))) as (rows & E & M).
  { rewrite <- Hl, <- (last_psums (diffs (0 :: os))), HP. reflexivity. }
  exists rows. split; [|now symmetry]. rewrite <- HP, <- M, E. clear. apply stores_concat.
Qed.

(** ** Regular lists *)

Lemma regular_some {A} (data : list A) degree l :
  (Z.of_nat (length data) < 2 ^ 63)%Z -> (- 2 ^ 31 <= degree < 2 ^ 31)%Z ->
  regular_adjacency_list data degree = Some l <->
  l = mkAdj data (psums (repeat (Z.to_nat degree) (length data / Z.to_nat degree))) /\
  ((0 < degree)%Z /\ (degree | Z.of_nat (length data))%Z \/ (degree <= 0)%Z /\ data = []).
Proof.
  intros Hsz Hdeg. unfold regular_adjacency_list.
  destruct (Z.eqb_spec degree 0) as [->|Hd0].
  - cbn [andb]. destruct data as [|x t]; cbn [length Z.of_nat].
    + cbn. split; [intro H; injection H as <-; split; [reflexivity|right; split; [lia|reflexivity]]|].
      intros (-> & _). reflexivity.
    + destruct (Z.eqb_spec (Z.pos (Pos.of_succ_nat (length t))) 0); [lia|]. cbn.
      split; [discriminate|]. intros (_ & [(H & _)|(_ & H)]); [lia|discriminate].
  - cbn [andb]. destruct (Z.ltb_spec 0 degree) as [Hp|Hn]; cbn [andb].
    + destruct (Z.eqb_spec (Z.of_nat (length data) mod degree) 0) as [Hm|Hm]; cbn [negb].
      * assert (Hnn : Z.to_nat (Z.of_nat (length data) / (degree mod 2 ^ 64))
                      = length data / Z.to_nat degree).
        { rewrite (Z.mod_small degree) by lia.
          rewrite <- (Nat2Z.id (length data / Z.to_nat degree)), Nat2Z.inj_div.
          now rewrite Z2Nat.id by lia. }
        rewrite Hnn, fold_offsets, map_const, seq_length.
        rewrite adj_make_psums.
        -- split; [intro H; injection H as <-; split; [reflexivity|left; split; [lia|]]|].
           ++ apply Z.mod_divide; lia.
           ++ intros (-> & _). reflexivity.
        -- rewrite lsum_repeat.
           apply Nat2Z.inj. rewrite Nat2Z.inj_mul, Nat2Z.inj_div, Z2Nat.id by lia.
           rewrite Z.mul_comm. symmetry. apply Z_div_exact_full_2; lia.
      * split; [discriminate|]. intros (_ & [(_ & H)|(H & _)]); [|lia].
        exfalso. apply Hm. apply Z.mod_divide; [lia|exact H].
    + assert (E : (Z.of_nat (length data) / (degree mod 2 ^ 64))%Z = 0%Z).
      { rewrite <- (Z_mod_plus_full degree 1 (2 ^ 64)), (Z.mod_small (degree + 1 * 2 ^ 64)) by lia.
        apply Z.div_small. lia. }
      rewrite E. cbn [Z.to_nat seq fold_left].
      replace (Z.to_nat degree) with 0 by lia. cbn [Nat.div repeat]. change [0] with (psums []).
      rewrite adj_make_iff. cbn.
      split.
      * intros (_ & H & ->). split; [reflexivity|]. right. split; [lia|]. now destruct data.
      * intros (-> & [(H & _)|(_ & ->)]); [lia|]. repeat split. discriminate.
Qed.

Lemma regular_links {A} (data : list A) degree l :
  (Z.of_nat (length data) < 2 ^ 63)%Z -> (0 < degree < 2 ^ 31)%Z ->
  regular_adjacency_list data degree = Some l ->
  exists rows, stores l rows /\ concat rows = data /\
    Forall (fun r => length r = Z.to_nat degree) rows /\
    length rows = length data / Z.to_nat degree.
Proof.
  intros Hsz Hd H. apply regular_some in H; [|exact Hsz|lia].
  destruct H as (-> & [(_ & Hdiv)|(Hn & _)]); [|lia].
  destruct (chop data (repeat (Z.to_nat degree) (length data / Z.to_nat degree))) as (rows & E & M).
  { rewrite lsum_repeat. apply Nat2Z.inj. rewrite Nat2Z.inj_mul, Nat2Z.inj_div, Z2Nat.id by lia.
    rewrite Z.mul_comm. symmetry. apply Z_div_exact_full_2; [lia|]. apply Z.mod_divide; [lia|exact Hdiv]. }
  exists rows. rewrite <- M.
  repeat split.
  - unfold num_nodes. cbn. rewrite psums_length, map_length. lia.
  - rewrite E. apply stores_concat.
  - rewrite E. apply stores_concat.
  - now symmetry.
  - apply Forall_forall. intros r Hr.
    apply (in_map (@length A)) in Hr. rewrite M in Hr. now apply repeat_spec in Hr.
  - rewrite <- (map_length (@length A)), M, repeat_length. reflexivity.
Qed.

(** ** Transposition *)

(** The (target, source) pairs in visiting order. *)
Definition tpairs (rows : list (list nat)) : list (nat * nat) :=
  concat (map (fun e => map (fun v => (v, e)) (nth e rows [])) (seq 0 (length rows))).

Lemma stores_link_nth {A} (l : adjlist A) rows e :
  stores l rows -> In e (seq 0 (length rows)) -> links l e = Some (nth e rows []).
Proof.
  intros (_ & H & _) He. apply in_seq in He. apply H.
  apply nth_error_nth'. lia.
Qed.

Lemma map_fst_tpairs rows : map fst (tpairs rows) = concat rows.
Proof.
  unfold tpairs. rewrite concat_map, map_map.
  rewrite map_ext with (g := fun e => nth e rows []).
  - f_equal. clear. apply nth_error_ext. intro i.
    rewrite nth_error_map_some. destruct (lt_dec i (length rows)).
    + rewrite nth_error_seq by lia. cbn. symmetry. now apply nth_error_nth'.
    + replace (nth_error (seq 0 (length rows)) i) with (@None nat).
      * cbn. symmetry. apply nth_error_None. lia.
      * symmetry. apply nth_error_None. rewrite seq_length. lia.
  - intro e. rewrite map_map. cbn. apply map_id.
Qed.

Lemma vals_tpairs rows v : vals v (tpairs rows) = transposed_row rows v.
Proof.
  unfold tpairs, transposed_row.
  induction (seq 0 (length rows)) as [|e t IH]; [reflexivity|].
  cbn [map concat]. rewrite vals_app, IH. f_equal.
  generalize (nth e rows []) as r. clear. induction r as [|x r IH]; [reflexivity|].
  cbn. unfold vals in *. cbn [fst filter]. destruct (Nat.eq_dec x v) as [->|N].
  - rewrite Nat.eqb_refl. cbn. now f_equal.
  - destruct (Nat.eqb_spec x v); [contradiction|]. exact IH.
Qed.

Lemma tpairs_below n rows : all_below n rows -> Forall (fun kv => fst kv < n) (tpairs rows).
Proof.
  intro H. apply Forall_forall. intros kv Hin.
  apply (in_map fst) in Hin. rewrite map_fst_tpairs in Hin.
  apply in_concat in Hin as (r & Hr & Hx). eapply H; eauto.
Qed.

(** The loop with a separate [counter] simulates the loop with moving positions. *)
Definition place_counter (offsets : list nat) (st : list nat * list nat) (kv : nat * nat) :=
  let '(counter, connections) := st in
  o <- nth_error offsets (fst kv) ;;
  k <- nth_error counter (fst kv) ;;
  connections' <- upd connections (o + k) (snd kv) ;;
  counter' <- upd counter (fst kv) (S k) ;;
  Some (counter', connections').

Lemma place_counter_sim offsets n kvs counter pos data :
  Forall (fun kv => fst kv < n) kvs ->
  length counter = n -> length pos = n -> n <= length offsets ->
  (forall k, k < n -> exists o c, nth_error offsets k = Some o /\ nth_error counter k = Some c
                                  /\ nth_error pos k = Some (o + c)) ->
  forall pos' data',
  ofold place kvs (pos, data) = Some (pos', data') ->
  exists counter', ofold (place_counter offsets) kvs (counter, data) = Some (counter', data').
Proof.
  intros Hk. revert counter pos data.
  induction Hk as [|kv t Hkv Ht IH]; intros counter pos data Lc Lp Lo Hrel pos' data' H.
  - cbn in *. injection H as <- <-. eauto.
  - cbn [ofold] in *. apply obind_some in H as ((pos1, data1) & H1 & H2).
    unfold place in H1. destruct (Hrel _ Hkv) as (o & c & Ho & Hc & Hp).
    rewrite Hp in H1. cbn [obind] in H1.
    apply obind_some in H1 as (d1 & Hd & H1). apply obind_some in H1 as (p1 & Hp1 & H1).
    injection H1 as -> ->.
    unfold place_counter at 1. rewrite Ho, Hc. cbn [obind]. rewrite Hd. cbn [obind].
    destruct (upd_some counter (fst kv) (S c)) as (c1 & Hc1); [lia|]. rewrite Hc1. cbn [obind].
    eapply (IH c1 pos1 data1); eauto.
    + now rewrite (upd_length _ _ _ _ Hc1).
    + now rewrite (upd_length _ _ _ _ Hp1).
    + intros k Hkn. rewrite (upd_nth _ _ _ k _ Hc1), (upd_nth _ _ _ k _ Hp1).
      destruct (Nat.eqb_spec (fst kv) k) as [<-|N].
      * exists o, (S c). repeat split; auto; f_equal; lia.
      * apply Hrel. exact Hkn.
Qed.

Lemma compute_from_transpose_spec c rows n :
  stores c rows -> all_below n rows ->
  exists t, compute_from_transpose c n = Some t /\
            stores t (map (transposed_row rows) (seq 0 n)).
Proof.
  intros Hs Hb. unfold compute_from_transpose.
  assert (HN : num_nodes c = length rows) by apply Hs. rewrite HN.
  erewrite ofold_nested by (intros a Ha; apply (stores_link_nth _ _ _ Hs Ha)).
  replace (concat (map (fun a => nth a rows []) (seq 0 (length rows)))) with (map fst (tpairs rows)).
  2:{ unfold tpairs. rewrite concat_map, map_map. f_equal. apply map_ext. intro e.
      rewrite map_map. cbn. apply map_id. }
  fold (count_keys n (map fst (tpairs rows))).
  pose proof (tpairs_below n rows Hb) as HF.
  rewrite count_keys_spec.
  2:{ apply Forall_forall. intros k Hin. apply in_map_iff in Hin as (kv & <- & Hin).
      rewrite Forall_forall in HF. now apply HF. }
  cbn [obind]. rewrite map_vals_counts.
  set (cnt := map (fun k => length (vals k (tpairs rows))) (seq 0 n)).
  assert (Hlc : length cnt = n) by (unfold cnt; now rewrite map_length, seq_length).
  assert (Hsum : lsum cnt = length (tpairs rows)).
  { unfold cnt. rewrite <- (vals_map_seq_total n _ HF), <- lsum_concat_length, map_map. reflexivity. }
  destruct (place_all n (tpairs rows) (firstn n (psums cnt)) (repeat 0 (last (psums cnt) 0)) HF)
    as (pos' & HP & HL & _ & _).
  { intros k Hk. rewrite <- (psums_offk n (tpairs rows) k) by lia. fold cnt.
    rewrite <- (firstn_skipn n (psums cnt)) at 2.
    rewrite nth_error_app1; [reflexivity|]. rewrite firstn_length, psums_length. lia. }
  { rewrite repeat_length, last_psums. exact Hsum. }
  assert (HC : exists counter', ofold (place_counter (psums cnt)) (tpairs rows)
       (repeat 0 (length cnt), repeat 0 (last (psums cnt) 0))
       = Some (counter', concat (map (fun k => vals k (tpairs rows)) (seq 0 n)))).
  { eapply (place_counter_sim (psums cnt) n _ _ (firstn n (psums cnt))); eauto.
    - rewrite repeat_length. exact Hlc.
    - rewrite firstn_length, psums_length. lia.
    - rewrite psums_length. lia.
    - intros k Hk. unfold cnt at 1. rewrite psums_offk by lia.
      exists (offk n (tpairs rows) k), 0. repeat split.
      + apply nth_error_repeat. lia.
      + rewrite Nat.add_0_r, <- (psums_offk n (tpairs rows) k) by lia. fold cnt.
        rewrite <- (firstn_skipn n (psums cnt)) at 2.
        rewrite nth_error_app1; [reflexivity|]. rewrite firstn_length, psums_length. lia. }
  destruct HC as (counter' & HC).
  match goal with |- context [ofold ?F (seq 0 (length rows)) ?S0] =>
    assert (HE : ofold F (seq 0 (length rows)) S0 = ofold (place_counter (psums cnt)) (tpairs rows) S0) end.
  { etransitivity.
    - apply (ofold_ext _ (fun st e1 => ls <- Some (map (fun v => (v, e1)) (nth e1 rows [])) ;;
                                  ofold (place_counter (psums cnt)) ls st)).
      intros s a Ha. rewrite (stores_link_nth _ _ _ Hs Ha). cbn [obind]. rewrite ofold_map.
      apply ofold_ext. intros (cc, dd) v _. reflexivity.
    - rewrite (ofold_nested _ _ (fun e1 => map (fun v => (v, e1)) (nth e1 rows []))) by reflexivity.
      reflexivity. }
  rewrite HE, HC. cbn [obind].
  rewrite adj_make_psums.
  2:{ rewrite Hsum. symmetry. now apply vals_map_seq_total. }
  eexists; split; [reflexivity|].
  replace cnt with (map (@length nat) (map (fun k => vals k (tpairs rows)) (seq 0 n)))
    by (rewrite map_map; reflexivity).
  replace (map (transposed_row rows) (seq 0 n)) with (map (fun k => vals k (tpairs rows)) (seq 0 n)).
  - apply stores_concat.
  - apply map_ext. intro k. apply vals_tpairs.
Qed.

(** A link outside the target range is an out-of-bounds write, never silently dropped. *)
Lemma compute_from_transpose_oob c rows n row x :
  stores c rows -> In row rows -> In x row -> n <= x -> compute_from_transpose c n = None.
Proof.
  intros Hs Hr Hx Hn. unfold compute_from_transpose.
  assert (HN : num_nodes c = length rows) by apply Hs. rewrite HN.
  erewrite ofold_nested by (intros a Ha; apply (stores_link_nth _ _ _ Hs Ha)).
  replace (concat (map (fun a => nth a rows []) (seq 0 (length rows)))) with (concat rows).
  2:{ rewrite <- map_fst_tpairs. unfold tpairs. rewrite concat_map, map_map. f_equal. apply map_ext. intro e.
      rewrite map_map. cbn. apply map_id. }
  fold (count_keys n (concat rows)). rewrite (count_keys_none n _ x); [reflexivity| |exact Hn].
  apply in_concat. eauto.
Qed.

(** ** Transposed dofmap *)

Lemma max_element_spec l m : max_element l = Some m -> Forall (fun x => x < m + 1) l /\ In m l.
Proof.
  destruct l as [|x t]; [discriminate|]. cbn. intro H. injection H as <-.
  destruct (fold_max_ge t x) as (H1 & H2). split.
  - constructor; [lia|]. apply Forall_forall. intros y Hy. specialize (H2 y Hy). lia.
  - clear H1 H2. revert x; induction t as [|a t IH]; intro x; cbn; [now left|].
    destruct (IH (Nat.max x a)) as [H|H]; [|right; now right].
    rewrite <- H. destruct (Nat.max_spec x a) as [(_ & ->)|(_ & ->)]; [right; left|left]; reflexivity.
Qed.

Lemma vals_combine_positions (d : list nat) v :
  vals v (combine d (seq 0 (length d))) = positions d v.
Proof.
  unfold positions, vals.
  assert (G : forall p, map snd (filter (fun kv => fst kv =? v) (combine d (seq (length p) (length d))))
    = filter (fun q => match nth_error (p ++ d) q with Some x => x =? v | None => false end)
             (seq (length p) (length d))).
  { induction d as [|x t IH]; intro p; [reflexivity|]. cbn [length seq combine filter fst].
    rewrite nth_error_app2, Nat.sub_diag by lia. cbn [nth_error].
    specialize (IH (p ++ [x])). rewrite app_length, <- app_assoc in IH. cbn [length app] in IH.
    rewrite Nat.add_1_r in IH.
    destruct (x =? v); cbn [map snd]; [f_equal|]; exact IH. }
  apply (G []).
Qed.

Lemma place_with_offset (d : list nat) pos data off :
  ofold (fun '(pos, data, cell_offset) v =>
           '(pos', data') <- place (pos, data) (v, cell_offset) ;;
           Some (pos', data', S cell_offset)) d (pos, data, off)
  = ('(pos', data') <- ofold place (combine d (seq off (length d))) (pos, data) ;;
     Some (pos', data', off + length d)).
Proof.
  revert pos data off; induction d as [|v t IH]; intros pos data off.
  - cbn. now rewrite Nat.add_0_r.
  - cbn [length seq combine]. cbn [ofold].
    destruct (place (pos, data) (v, off)) as [(p1, d1)|]; cbn [obind]; [|reflexivity].
    rewrite IH. destruct (ofold place (combine t (seq (S off) (length t))) (p1, d1)) as [(p2, d2)|];
      cbn [obind]; [|reflexivity]. do 2 f_equal. lia.
Qed.

Lemma transpose_dofmap_spec dofmap dim num_cells :
  num_cells * dim <= length dofmap -> 0 < num_cells * dim ->
  exists m t, max_element (firstn (num_cells * dim) dofmap) = Some m /\
    transpose_dofmap dofmap dim num_cells = Some t /\
    stores t (map (positions (firstn (num_cells * dim) dofmap)) (seq 0 (S m))).
Proof.
  intros Hl Hp. unfold transpose_dofmap.
  set (d := firstn (num_cells * dim) dofmap).
  assert (Hd : slice dofmap 0 (num_cells * dim) = Some d).
  { apply slice_some. repeat split; [lia|exact Hl|]. now rewrite Nat.sub_0_r. }
  rewrite Hd. cbn [obind].
  assert (Hld : length d = num_cells * dim) by (unfold d; rewrite firstn_length; lia).
  destruct (max_element d) as [m|] eqn:Em.
  2:{ destruct d; [cbn in Hld; lia|discriminate]. }
  cbn [obind]. exists m. apply max_element_spec in Em as (HF & Hin).
  rewrite (ofold_grid incr dofmap dim num_cells) by exact Hl. fold d. rewrite Nat.add_1_r in *.
  fold (count_keys (S m) d). rewrite count_keys_spec.
  2:{ eapply Forall_impl; [|exact HF]. cbn. intros; lia. }
  cbn [obind].
  set (kvs := combine d (seq 0 (length d))).
  assert (Hk : map fst kvs = d) by (unfold kvs; apply map_fst_combine; now rewrite seq_length).
  assert (HFk : Forall (fun kv => fst kv < S m) kvs).
  { apply Forall_forall. intros kv Hkv. apply (in_map fst) in Hkv. rewrite Hk in Hkv.
    rewrite Forall_forall in HF. specialize (HF _ Hkv). cbn in HF. lia. }
  rewrite <- Hk, map_vals_counts, Hk. set (cnt := map (fun k => length (vals k kvs)) (seq 0 (S m))).
  assert (Hsum : lsum cnt = length kvs).
  { unfold cnt. rewrite <- (vals_map_seq_total (S m) _ HFk), <- lsum_concat_length, map_map. reflexivity. }
  match goal with |- context [ofold ?F (seq 0 num_cells) ?S0] =>
    assert (HE : ofold F (seq 0 num_cells) S0 =
       ofold (fun '(pos, data, cell_offset) v =>
           '(pos', data') <- place (pos, data) (v, cell_offset) ;;
           Some (pos', data', S cell_offset)) d S0) end.
  { etransitivity; [|apply (ofold_grid _ dofmap dim num_cells); exact Hl].
    apply ofold_ext. intros s c _. apply ofold_ext. intros ((p, q), o) k _. reflexivity. }
  rewrite HE, place_with_offset. fold kvs.
  destruct (place_all (S m) kvs (psums cnt) (repeat 0 (last (psums cnt) 0)) HFk) as (pos' & HP & _).
  { intros k Hkn. unfold cnt. apply psums_offk. lia. }
  { rewrite repeat_length, last_psums. exact Hsum. }
  rewrite HP. cbn [obind]. rewrite adj_make_psums.
  2:{ rewrite Hsum. symmetry. now apply vals_map_seq_total. }
  eexists; repeat split.
  - unfold num_nodes. cbn [al_offsets]. rewrite psums_length. unfold cnt. rewrite !map_length. lia.
  - intros i row Hi. rewrite <- (map_ext _ _ (vals_combine_positions d)) in Hi.
    replace cnt with (map (@length nat) (map (fun k => vals k kvs) (seq 0 (S m))))
      by (rewrite map_map; reflexivity).
    apply stores_concat. exact Hi.
  - intros i Hi. replace cnt with (map (@length nat) (map (fun k => vals k kvs) (seq 0 (S m))))
      by (rewrite map_map; reflexivity).
    apply stores_concat. rewrite map_length in *. exact Hi.
Qed.

Lemma transpose_dofmap_no_cells dofmap dim : transpose_dofmap dofmap dim 0 = None.
Proof. unfold transpose_dofmap, slice. reflexivity. Qed.

Lemma adj_make_nd_iff {A W} (data : list A) offsets (nd : list W) r :
  adj_make_nd data offsets nd = Some r <->
  offsets <> [] /\ length nd = length offsets - 1 /\ last offsets 0 = length data
  /\ r = (mkAdj data offsets, nd).
Proof.
  unfold adj_make_nd. destruct offsets as [|o os].
  - split; [discriminate|]. intros (H & _). now destruct H.
  - destruct (Nat.eqb_spec (length nd) (length os)) as [E|E].
    + rewrite obind_some. split.
      * intros (a & Ha & H). apply adj_make_iff in Ha as (H1 & H2 & ->). injection H as <-.
        repeat split; auto. cbn. lia.
      * intros (H1 & H2 & H3 & ->). eexists. rewrite adj_make_iff. repeat split; auto.
    + split; [discriminate|]. intros (_ & H & _). cbn in H. lia.
Qed.

Lemma num_links_spec {A} (l : adjlist A) i ls : links l i = Some ls -> num_links l i = Some (length ls).
Proof.
  unfold links, num_links, slice_at. intro H.
  apply obind_some in H as (a & Ha & H). apply obind_some in H as (b & Hb & H).
  rewrite Ha, Hb. cbn [obind]. apply slice_some in H as (H1 & H2 & ->).
  rewrite firstn_length, skipn_length. f_equal. lia.
Qed.

Lemma adj_iota_stores n : stores (adj_iota n) (map (fun i => [i]) (seq 0 n)).
Proof.
  assert (E : adj_iota n = mkAdj (concat (map (fun i => [i]) (seq 0 n)))
                (psums (map (@length nat) (map (fun i => [i]) (seq 0 n))))).
  { unfold adj_iota. f_equal.
    - induction (seq 0 n); cbn; congruence.
    - rewrite map_map. cbn [length]. rewrite map_const, seq_length. unfold psums.
      assert (G : forall a, seq a (S n) = psums_from a (repeat 1 n)); [|apply G].
      induction n as [|n IH]; intro a; [reflexivity|].
      cbn [repeat psums_from]. rewrite (Nat.add_1_r a), <- (IH (S a)). reflexivity. }
  rewrite E. apply stores_concat.
Qed.

Lemma adj_eqb_spec {A} (eqb : A -> A -> bool) l1 l2 :
  (forall x y, eqb x y = true <-> x = y) -> (adj_eqb eqb l1 l2 = true <-> l1 = l2).
Proof.
  intro He.
  assert (G : forall X (e : X -> X -> bool), (forall x y, e x y = true <-> x = y) -> forall a b,
    (fix leqb {X} (e : X -> X -> bool) (a b : list X) :=
      match a, b with
      | [], [] => true
      | x :: a', y :: b' => e x y && leqb e a' b'
      | _, _ => false
      end) X e a b = true <-> a = b).
  { intros X e Hx. induction a as [|x a IH]; intros [|y b]; split; intro H; try discriminate; auto.
    - apply andb_true_iff in H as (H1 & H2). f_equal; [now apply Hx|now apply IH].
    - injection H as <- <-. apply andb_true_iff. split; [now apply Hx|now apply IH]. }
  unfold adj_eqb. rewrite andb_true_iff.
  rewrite (G A eqb He), (G nat Nat.eqb Nat.eqb_eq). destruct l1, l2; cbn. split.
  - intros (-> & ->). reflexivity.
  - intro H. injection H as -> ->. auto.
Qed.

Lemma in_transposed_row rows v e :
  In e (transposed_row rows v) <-> exists row, nth_error rows e = Some row /\ In v row.
Proof.
  unfold transposed_row. rewrite in_concat. split.
  - intros (l & Hl & He). apply in_map_iff in Hl as (e' & <- & He').
    pose proof (repeat_spec _ _ _ He) as <-. apply in_seq in He'.
    exists (nth e rows []). split; [apply nth_error_nth'; lia|].
    destruct (count_occ Nat.eq_dec (nth e rows []) v) eqn:Ec; [destruct He|].
    apply (count_occ_In Nat.eq_dec). lia.
  - intros (row & Hr & Hv). pose proof (nth_error_bound _ _ _ Hr) as Hb.
    eexists; split; [apply in_map_iff; exists e; split; [reflexivity|apply in_seq; lia]|].
    rewrite (nth_error_nth _ _ [] Hr).
    apply (count_occ_In Nat.eq_dec) in Hv. destruct (count_occ Nat.eq_dec row v); [lia|now left].
Qed.

Lemma transposed_row_sorted rows v : Sorted le (transposed_row rows v).
Proof.
  apply StronglySorted_Sorted. unfold transposed_row.
  generalize (length rows) as n. intro n.
  assert (G : forall a n, StronglySorted le
     (concat (map (fun e => repeat e (count_occ Nat.eq_dec (nth e rows []) v)) (seq a n)))
     /\ Forall (fun x => a <= x) (concat (map (fun e => repeat e (count_occ Nat.eq_dec (nth e rows []) v)) (seq a n)))).
  { intros a m. revert a. induction m as [|m IH]; intro a; cbn [seq map concat]; [repeat constructor|].
    destruct (IH (S a)) as (H1 & H2).
    assert (H3 : Forall (fun x => a <= x)
       (concat (map (fun e => repeat e (count_occ Nat.eq_dec (nth e rows []) v)) (seq (S a) m)))).
    { eapply Forall_impl; [|exact H2]. cbn; intros; lia. }
    induction (count_occ Nat.eq_dec (nth a rows []) v) as [|k IHk]; cbn [repeat app]; [auto|].
    destruct IHk as (A & B). split; constructor; auto. }
  apply (G 0 n).
Qed.
