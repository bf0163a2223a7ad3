(** Proofs about VTKHDF files, for property C90: what is read. *)
From Coq Require Import Permutation Sorted.
From Verif Require Import Base BaseProofs Ranges CellTypes Cells CellsSpec CellsInverse Xdmf XdmfSpec XdmfProofs VtkHdf VtkHdfSpec VtkHdfWrite.
Open Scope nat_scope.

(** ** Sorted lists of kinds *)
Definition kind_lt (a b : nat * nat) : Prop := fst a < fst b \/ (fst a = fst b /\ snd a < snd b).
Lemma kind_ltb_spec a b : kind_ltb a b = true <-> kind_lt a b.
Proof.
  unfold kind_ltb, kind_lt. rewrite orb_true_iff, andb_true_iff, !Nat.ltb_lt, Nat.eqb_eq. reflexivity.
Qed.
Lemma kind_total a b : kind_ltb a b = false -> kind_ltb b a = false -> a = b.
Proof.
  intros H1 H2. assert (N1 : ~ kind_lt a b) by (rewrite <- kind_ltb_spec, H1; discriminate). assert (N2 : ~ kind_lt b a) by (rewrite <- kind_ltb_spec, H2; discriminate).
  destruct a as [a1 a2], b as [b1 b2]. unfold kind_lt in *. cbn [fst snd] in *. f_equal; lia.
Qed.
Lemma insert_in x l k : In k (insert_kind x l) <-> k = x \/ In k l.
Proof.
  induction l as [|y l IH]; cbn [insert_kind]; [cbn; intuition|]. destruct (kind_ltb x y) eqn:E1; [cbn; intuition|]. destruct (kind_ltb y x) eqn:E2; [cbn [In]; rewrite IH; intuition|].
  rewrite (kind_total x y E1 E2). cbn. intuition.
Qed.
Lemma insert_sorted x l : StronglySorted kind_lt l -> StronglySorted kind_lt (insert_kind x l).
Proof.
  induction 1 as [|y l H IH Hy]; cbn [insert_kind]; [repeat constructor|]. destruct (kind_ltb x y) eqn:E1.
  - apply kind_ltb_spec in E1. constructor; [now constructor|]. constructor; [exact E1|]. rewrite Forall_forall in *. intros k Hk. specialize (Hy k Hk). unfold kind_lt in *. lia.
  - destruct (kind_ltb y x) eqn:E2; [|now constructor]. constructor; [exact IH|]. apply kind_ltb_spec in E2. rewrite Forall_forall in *. intros k Hk. apply insert_in in Hk as [->|Hk]; auto.
Qed.
Lemma unique_in l k : In k (unique_kinds l) <-> In k l.
Proof. induction l as [|x l IH]; [reflexivity|]. cbn [unique_kinds fold_right]. fold (unique_kinds l). rewrite insert_in, IH. cbn. intuition. Qed.
Lemma unique_nodup l : NoDup (unique_kinds l).
Proof.
  assert (H : StronglySorted kind_lt (unique_kinds l)) by (induction l as [|x l IH]; [constructor|apply insert_sorted, IH]).
  induction H as [|x m H IH Hx]; constructor; [|exact IH]. intro Hin. rewrite Forall_forall in Hx. specialize (Hx x Hin). unfold kind_lt in Hx. lia.
Qed.
Lemma kind_index_ok l : forall k, In k l -> exists i, kind_index k l = Some i /\ nth_error l i = Some k.
Proof.
  induction l as [|y l IH]; intros k Hk; [contradiction|]. cbn [kind_index]. destruct ((fst k =? fst y) && (snd k =? snd y)) eqn:E.
  - apply andb_true_iff in E as [E1 E2]. apply Nat.eqb_eq in E1, E2. exists 0. split; [reflexivity|]. cbn. f_equal. destruct k, y; cbn in *; congruence.
  - destruct Hk as [->|Hk]; [now rewrite !Nat.eqb_refl in E|]. destruct (IH k Hk) as (i & E1 & E2). rewrite E1. cbn [obind]. exists (S i). now split.
Qed.
(** ** Slices *)
Lemma skipn_psums a l m : m <= length l -> skipn m (psums_from a l) = psums_from (a + lsum (firstn m l)) (skipn m l).
Proof.
  revert a l. induction m as [|m IH]; intros a l H; [cbn [firstn skipn]; now rewrite lsum_nil, Nat.add_0_r|]. destruct l as [|x l]; [cbn in H; lia|]. cbn [psums_from skipn firstn length] in *. rewrite IH by lia. now rewrite lsum_cons, Nat.add_assoc.
Qed.
Lemma firstn_psums a l m : m <= length l -> firstn (S m) (psums_from a l) = psums_from a (firstn m l).
Proof.
  revert a l. induction m as [|m IH]; intros a l H; [destruct l; reflexivity|]. destruct l as [|x l]; [cbn in H; lia|]. cbn [psums_from length] in *. rewrite firstn_cons, IH by lia. reflexivity.
Qed.
Lemma nth_rows {A} (L : list (list A)) : forall j row x, nth_error L j = Some row -> x < length row -> nth_error (concat L) (x + lsum (map (@length A) (firstn j L))) = nth_error row x.
Proof.
  induction L as [|l L IH]; intros [|j] row x E Hx; try discriminate; cbn [concat firstn map nth_error] in *.
  - injection E as ->. rewrite lsum_nil, Nat.add_0_r. now apply nth_error_app1.
  - rewrite lsum_cons, nth_error_app2 by lia. rewrite <- (IH j row x E Hx). f_equal. lia.
Qed.

Section Read.
Context {U : Type}.
Variables (types : list (cell_type * nat)) (Q : nat) (G : list (nat * list nat)) (points : list U).
Hypothesis Htypes : forall i t nn, nth_error types i = Some (t, nn) -> exists d, readable t d nn.
Hypothesis Hg : forall g, In g G -> exists t nn, nth_error types (fst g) = Some (t, nn) /\ length (snd g) = nn.
Hypothesis HQ : 0 < Q.
Hypothesis HN : 0 < length G.
Notation size_of := (size_of types).
Notation code_of := (code_of types).
Notation vtk_row := (vtk_row types).
Definition F : vtk_file U := mk_file points (psums (map size_of G)) (concat (map vtk_row G)) (map code_of G).
Definition lo q := rlo Q (length G) q.
Definition hi q := rhi Q (length G) q.
Definition part q : list (nat * list nat) := firstn (hi q - lo q) (skipn (lo q) G).
Definition base q : nat := lsum (firstn (lo q) (map size_of G)).
Definition kind_of (g : nat * list nat) : nat * nat := match cell_kind (code_of g) (size_of g) with Some k => k | None => (0, 0) end.

Lemma bounds q : q < Q -> lo q <= hi q /\ hi q <= length G.
Proof. intro Hq. assert (LF : length G = length G * 1) by lia. exact (ranges_bound Q (length G) 1 G HQ HN LF q Hq). Qed.
Lemma part_length q : q < Q -> length (part q) = hi q - lo q.
Proof. intro Hq. destruct (bounds q Hq). unfold part. rewrite firstn_length, skipn_length. lia. Qed.
Lemma parts : gathered Q part = G.
Proof.
  apply (read_gathered Q (length G) 1 G HQ HN); [lia|]. intros q Hq. fold (lo q) (hi q). rewrite part_length by exact Hq. split; [lia|]. intros m Hm. unfold part. rewrite nth_firstn, nth_skipn by lia. f_equal. lia.
Qed.
Lemma part_in q g : q < Q -> In g (part q) -> In g G.
Proof. intros Hq H. rewrite <- parts. unfold gathered. apply in_concat. exists (part q). split; [apply in_map_iff; exists q; split; [reflexivity|apply in_seq; lia]|exact H]. Qed.
Lemma in_parts g : In g G -> exists q, q < Q /\ In g (part q).
Proof. rewrite <- parts at 1. unfold gathered. intro H. apply in_concat in H as (l & H1 & H2). apply in_map_iff in H1 as (q & <- & Hq). apply in_seq in Hq. exists q. split; [lia|exact H2]. Qed.
Lemma skipn_twice {X} (l : list X) a b : skipn a (skipn b l) = skipn (b + a) l.
Proof. revert l. induction b as [|b IH]; intros [|x l]; cbn [skipn Nat.add]; try reflexivity; [now rewrite skipn_nil|apply IH]. Qed.
Lemma base_split q : q < Q -> G = firstn (lo q) G ++ part q ++ skipn (hi q) G.
Proof.
  intro Hq. destruct (bounds q Hq) as [H1 H2]. unfold part. rewrite <- (firstn_skipn (lo q) G) at 1. f_equal. rewrite <- (firstn_skipn (hi q - lo q) (skipn (lo q) G)) at 1. f_equal. rewrite skipn_twice. f_equal. lia.
Qed.
Lemma row_len g : In g G -> length (vtk_row g) = size_of g.
Proof. intro H. destruct (Hg g H) as (t & nn & E & _). unfold VtkHdfWrite.vtk_row, VtkHdfWrite.size_of. rewrite E. unfold row_to_vtk. now rewrite map_length, seq_length. Qed.
Lemma rows_len l : (forall g, In g l -> In g G) -> map (@length nat) (map vtk_row l) = map size_of l.
Proof. intro H. rewrite map_map. apply map_ext_in. intros g Hin. apply row_len. auto. Qed.
Lemma read_part_ok q : q < Q -> read_part Q F q = Some (map code_of (part q), psums_from (base q) (map size_of (part q))).
Proof.
  intro Hq. destruct (bounds q Hq) as [H1 H2]. unfold read_part. cbn [v_types v_offsets F]. rewrite map_length.
  destruct (local_range (Z.of_nat q) (Z.of_nat (length G)) (Z.of_nat Q)) as [a b] eqn:E. assert (Ha : Z.to_nat a = lo q) by (unfold lo, rlo; now rewrite E). assert (Hb : Z.to_nat b = hi q) by (unfold hi, rhi; now rewrite E). rewrite Ha, Hb.
  rewrite (proj2 (slice_some (map code_of G) (lo q) (hi q) (map code_of (part q)))) by (split; [exact H1|]; split; [rewrite map_length; exact H2|]; unfold part; now rewrite skipn_map, firstn_map). cbn [obind].
  rewrite (proj2 (slice_some (psums (map size_of G)) (lo q) (hi q + 1) (psums_from (base q) (map size_of (part q))))); [reflexivity|]. split; [lia|]. unfold psums. rewrite psums_from_length, map_length. split; [lia|].
  rewrite skipn_psums by (rewrite map_length; lia). replace (hi q + 1 - lo q) with (S (hi q - lo q)) by lia. rewrite firstn_psums by (rewrite skipn_length, map_length; lia). unfold base, part. cbn [Nat.add]. now rewrite skipn_map, !firstn_map.
Qed.
Lemma kind_ok g : In g G -> exists t nn d, nth_error types (fst g) = Some (t, nn) /\ readable t d nn /\ size_of g = nn /\ length (snd g) = nn /\ code_of g = vtk_code t /\ cell_kind (code_of g) (size_of g) = Some (vtk_code t, d) /\ kind_of g = (vtk_code t, d).
Proof.
  intro H. destruct (Hg g H) as (t & nn & E & L). destruct (Htypes _ _ _ E) as (d & R). destruct (readable_kind t d nn R) as [K _]. exists t, nn, d.
  assert (E1 : size_of g = nn) by (unfold VtkHdfWrite.size_of; now rewrite E). assert (E2 : code_of g = vtk_code t) by (unfold VtkHdfWrite.code_of; now rewrite E).
  unfold kind_of. rewrite E1, E2, K. auto 8.
Qed.
Lemma offset_nth q j : j <= length (part q) -> nth_error (psums_from (base q) (map size_of (part q))) j = Some (base q + lsum (map size_of (firstn j (part q)))).
Proof. intro H. rewrite psums_from_nth by (rewrite map_length; exact H). now rewrite firstn_map. Qed.
Lemma firstn_S_nth {X} (l : list X) j x : nth_error l j = Some x -> firstn (S j) l = firstn j l ++ [x].
Proof. revert j. induction l as [|y l IH]; intros [|j] E; try discriminate; [cbn in *; now injection E as ->|]. cbn [nth_error] in E. rewrite !firstn_cons, (IH j E). reflexivity. Qed.
Lemma sizes_step q j g : nth_error (part q) j = Some g -> lsum (map size_of (firstn (S j) (part q))) = lsum (map size_of (firstn j (part q))) + size_of g.
Proof. intro E. rewrite (firstn_S_nth _ _ _ E), map_app, lsum_app. cbn [map]. now rewrite lsum_cons, lsum_nil, Nat.add_0_r. Qed.
Lemma part_kinds_ok q : q < Q -> part_kinds (map code_of (part q)) (psums_from (base q) (map size_of (part q))) = Some (map kind_of (part q)).
Proof.
  intro Hq. unfold part_kinds. rewrite map_length. rewrite (omap_map _ (fun j => nth j (map kind_of (part q)) (0, 0))).
  - f_equal. apply nth_error_ext. intro j. destruct (Nat.lt_ge_cases j (length (part q))) as [Hj|Hj].
    + rewrite nth_error_map, nth_error_seq by exact Hj. cbn [option_map Nat.add]. symmetry. apply nth_error_nth'. now rewrite map_length.
    + rewrite !(proj2 (nth_error_None _ _)); [reflexivity|rewrite map_length; exact Hj|rewrite map_length, seq_length; exact Hj].
  - intros j Hj. apply in_seq in Hj. destruct (nth_error_lt (part q) j ltac:(lia)) as (g & Eg). rewrite nth_error_map, Eg. cbn [option_map obind]. rewrite !offset_nth by lia. cbn [obind]. rewrite (sizes_step q j g Eg).
    destruct (kind_ok g (part_in q g Hq (nth_error_In _ _ Eg))) as (t & nn & d & _ & _ & _ & _ & _ & K & K'). match goal with |- cell_kind _ ?n = _ => replace n with (size_of g) by lia end.
    rewrite K. f_equal. symmetry. rewrite <- K'. apply nth_error_nth. rewrite nth_error_map, Eg. reflexivity.
Qed.
Definition kinds : list (nat * nat) := unique_kinds (concat (map (fun q => unique_kinds (map kind_of (part q))) (seq 0 Q))).
Lemma all_kinds_ok : all_kinds Q F = Some kinds.
Proof.
  unfold all_kinds. rewrite (omap_map _ (fun q => unique_kinds (map kind_of (part q)))); [reflexivity|]. intros q Hq. apply in_seq in Hq. rewrite read_part_ok by lia. cbn [obind]. rewrite part_kinds_ok by lia. reflexivity.
Qed.
Lemma kinds_in k : In k kinds <-> exists g, In g G /\ kind_of g = k.
Proof.
  unfold kinds. rewrite unique_in, in_concat. split.
  - intros (l & H1 & H2). apply in_map_iff in H1 as (q & <- & Hq). apply in_seq in Hq. apply unique_in, in_map_iff in H2 as (g & <- & H). exists g. split; [apply (part_in q); [lia|exact H]|reflexivity].
  - intros (g & H & <-). destruct (in_parts g H) as (q & Hq & Hin). exists (unique_kinds (map kind_of (part q))). split; [apply in_map_iff; exists q; split; [reflexivity|apply in_seq; lia]|]. apply unique_in, in_map, Hin.
Qed.
Definition type_of (k : nat * nat) : cell_type * nat := match vtk_to_dolfinx (fst k) with Some (t, _) => (t, snd k) | None => (Point, 0) end.
Lemma type_of_ok t d nn : readable t d nn -> type_of (vtk_code t, d) = (t, d).
Proof. intro R. destruct (readable_kind t d nn R) as [_ E]. unfold type_of. cbn [fst snd]. now rewrite E. Qed.
(** The nodes of a cell that is read are those that were given. *)
Lemma row_ok q j g t nn d : q < Q -> nth_error (part q) j = Some g -> nth_error types (fst g) = Some (t, nn) -> readable t d nn -> length (snd g) = nn ->
  exists perm, perm_vtk t (Z.of_nat nn) = Some perm /\
  omap (fun k => x <- nth_error perm k ;; nth_error (concat (map vtk_row (part q))) (Z.to_nat x + lsum (map size_of (firstn j (part q))))) (seq 0 nn) = Some (snd g).
Proof.
  intros Hq Eg Et R L. destruct (order_ok types Htypes (fst g) t nn Et) as (p & E1 & E2 & Pp & Pq & I). exists p. split; [exact E1|].
  pose proof (permutation_len p (Z.of_nat nn) ltac:(lia) Pp) as Lp. pose proof (permutation_len _ (Z.of_nat nn) ltac:(lia) Pq) as Lq.
  rewrite (omap_map _ (fun k => nth k (snd g) 0)).
  - f_equal. apply nth_error_ext. intro k. destruct (Nat.lt_ge_cases k nn) as [Hk|Hk].
    + rewrite nth_error_map, nth_error_seq by exact Hk. cbn [option_map Nat.add]. symmetry. apply nth_error_nth'. lia.
    + rewrite !(proj2 (nth_error_None _ _)); [reflexivity|lia|rewrite map_length, seq_length; exact Hk].
  - intros k Hk. apply in_seq in Hk. rewrite (nth_error_nth' p 0%Z) by lia. cbn [obind]. assert (Hx : (0 <= nth k p 0 < Z.of_nat nn)%Z) by (apply (proj2 Pp), nth_In; lia).
    set (x := Z.to_nat (nth k p 0%Z)). assert (Ex : nth_error p k = Some (Z.of_nat x)) by (rewrite (nth_error_nth' p 0%Z) by lia; f_equal; unfold x; lia). apply I in Ex.
    rewrite <- rows_len by (intros g' Hg'; apply (part_in q _ Hq); apply (In_nth_error) in Hg' as (m & Em); destruct (Nat.lt_ge_cases m j) as [Hm|Hm]; [rewrite nth_firstn in Em by exact Hm; exact (nth_error_In _ _ Em)|apply nth_error_bound in Em; rewrite firstn_length in Em; lia]).
    rewrite <- firstn_map. assert (Er : nth_error (map vtk_row (part q)) j = Some (vtk_row g)) by (rewrite nth_error_map, Eg; reflexivity). rewrite (nth_rows _ j (vtk_row g) x Er).
    + unfold VtkHdfWrite.vtk_row. rewrite Et. unfold row_to_vtk. rewrite nth_error_map, nth_error_seq by lia. cbn [option_map Nat.add]. rewrite (nth_error_nth _ _ _ Ex), Nat2Z.id. reflexivity.
    + rewrite row_len by (apply (part_in q _ Hq), (nth_error_In _ _ Eg)). unfold VtkHdfWrite.size_of. rewrite Et. lia.
Qed.
Definition same_kind (k k' : nat * nat) : bool := (fst k =? fst k') && (snd k =? snd k').
Lemma same_kind_ok k k' : same_kind k k' = true <-> k = k'.
Proof. unfold same_kind. rewrite andb_true_iff, !Nat.eqb_eq. destruct k, k'; cbn [fst snd]. split; [intros [-> ->]; reflexivity|intro E; injection E as -> ->; now split]. Qed.
Definition rows_of (k : nat * nat) (l : list (nat * list nat)) : list nat := concat (map snd (filter (fun g => same_kind (kind_of g) k) l)).
Lemma rows_of_app k l1 l2 : rows_of k (l1 ++ l2) = rows_of k l1 ++ rows_of k l2.
Proof. unfold rows_of. now rewrite filter_app, map_app, concat_app. Qed.
Lemma last_offset q : nth_error (psums_from (base q) (map size_of (part q))) (length (psums_from (base q) (map size_of (part q))) - 1) = Some (base q + lsum (map size_of (part q))).
Proof. rewrite psums_from_length, map_length. replace (S (length (part q)) - 1) with (length (part q)) by lia. rewrite offset_nth by lia. now rewrite firstn_all. Qed.
Lemma read_cells_ok q : q < Q -> read_cells Q F q = Some (map type_of kinds, map (fun k => rows_of k (part q)) kinds).
Proof.
  intro Hq. unfold read_cells. rewrite all_kinds_ok. cbn [obind]. rewrite read_part_ok by exact Hq. cbn [obind]. rewrite part_kinds_ok by exact Hq. cbn [obind].
  rewrite (omap_map _ type_of).
  2:{ intros k Hk. apply kinds_in in Hk as (g & H & <-). destruct (kind_ok g H) as (t & nn & d & _ & R & _ & _ & _ & _ & ->). destruct (readable_kind t d nn R) as [_ E]. unfold type_of. cbn [fst snd]. rewrite E. reflexivity. }
  cbn [obind]. assert (Ef : nth_error (psums_from (base q) (map size_of (part q))) 0 = Some (base q)) by (rewrite psums_head; reflexivity). rewrite Ef. cbn [obind]. rewrite last_offset. cbn [obind].
  assert (Es : slice (v_connectivity F) (base q) (base q + lsum (map size_of (part q))) = Some (concat (map vtk_row (part q)))).
  { cbn [v_connectivity F]. rewrite (base_split q Hq) at 1. rewrite !map_app, !concat_app. unfold base.
    replace (lsum (firstn (lo q) (map size_of G))) with (length (concat (map vtk_row (firstn (lo q) G)))).
    - replace (lsum (map size_of (part q))) with (length (concat (map vtk_row (part q)))); [apply slice_app_mid|]. rewrite <- lsum_concat_length, rows_len; [reflexivity|]. intros g H; now apply (part_in q).
    - rewrite <- lsum_concat_length, rows_len; [now rewrite firstn_map|]. intros g H. rewrite <- (firstn_skipn (lo q) G). apply in_or_app. now left. }
  rewrite Es. cbn [obind]. rewrite !map_length.
  match goal with |- obind (ofold ?f ?l ?s0) _ = _ => destruct (ofold_prefix_ind f (fun p s => s = map (fun k => rows_of k (firstn (length p) (part q))) kinds) l s0) as (s' & E & ->) end.
  - cbn [length firstn]. unfold rows_of. cbn [filter map concat]. now rewrite map_const.
  - intros p j r s Ej ->. assert (Hj : j = length p /\ j < length (part q)).
    { assert (E : nth_error (seq 0 (length (part q))) (length p) = Some j) by (rewrite Ej, nth_error_app2, Nat.sub_diag by lia; reflexivity). pose proof (nth_error_bound _ _ _ E) as Hb. rewrite seq_length in Hb. rewrite nth_error_seq in E by exact Hb. injection E as E. lia. }
    destruct Hj as [Hj1 Hj2]. rewrite <- Hj1. destruct (nth_error_lt (part q) j Hj2) as (g & Eg). rewrite nth_error_map, Eg. cbn [option_map obind].
    pose proof (part_in q g Hq (nth_error_In _ _ Eg)) as Hin. destruct (kind_ok g Hin) as (t & nn & d & Et & R & Sz & L & _ & _ & K).
    destruct (kind_index_ok kinds (kind_of g)) as (i & Ei & En); [apply kinds_in; now exists g|]. rewrite Ei. cbn [obind]. rewrite nth_error_map, En. cbn [option_map]. rewrite K, (type_of_ok t d nn R). cbn [obind].
    rewrite !offset_nth by lia. cbn [obind]. rewrite (sizes_step q j g Eg), Sz. replace (base q + (lsum (map size_of (firstn j (part q))) + nn) - (base q + lsum (map size_of (firstn j (part q))))) with nn by lia.
    destruct (row_ok q j g t nn d Hq Eg Et R L) as (perm & E1 & E2). rewrite E1. cbn [obind]. replace (base q + lsum (map size_of (firstn j (part q))) - base q) with (lsum (map size_of (firstn j (part q)))) by lia. rewrite E2. cbn [obind].
    destruct (modify_some (map (fun k => rows_of k (firstn j (part q))) kinds) i (fun l => l ++ snd g)) as (s' & Em); [rewrite map_length; exact (nth_error_bound _ _ _ En)|]. exists s'. split; [exact Em|].
    rewrite app_length. cbn [length]. replace (length p + 1) with (S j) by lia. rewrite (firstn_S_nth _ _ _ Eg).
    apply nth_error_ext. intro m. rewrite (modify_nth _ _ _ _ _ Em), !nth_error_map. destruct (nth_error kinds m) as [k|] eqn:Ek; cbn [option_map]; [|destruct (i =? m); reflexivity].
    rewrite rows_of_app. assert (E1r : rows_of k [g] = if same_kind (kind_of g) k then snd g else []) by (unfold rows_of; cbn [filter]; destruct (same_kind (kind_of g) k); cbn [map concat]; [apply app_nil_r|reflexivity]). rewrite E1r. destruct (Nat.eqb_spec i m) as [<-|Nm].
    + assert (k = kind_of g) as -> by congruence. rewrite (proj2 (same_kind_ok _ _) eq_refl). reflexivity.
    + destruct (same_kind (kind_of g) k) eqn:Ks; [|now rewrite app_nil_r]. exfalso. apply same_kind_ok in Ks. subst k. apply Nm. apply (proj1 (NoDup_nth_error kinds) (unique_nodup _) i m); [exact (nth_error_bound _ _ _ En)|congruence].
  - rewrite E. cbn [obind]. rewrite seq_length, firstn_all. reflexivity.
Qed.
Lemma read_all k : gathered Q (fun q => rows_of k (part q)) = rows_of k G.
Proof.
  rewrite <- parts at 1. unfold gathered. generalize (seq 0 Q). induction l as [|q l IH]; [reflexivity|]. cbn [map concat]. now rewrite rows_of_app, IH.
Qed.
End Read.
