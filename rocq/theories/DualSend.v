(** The exchange with the post offices of the dual graph. *)
From Verif Require Import Base BaseProofs BucketProofs Algo AlgoProofs World WorldProofs Ranges RangesProofs Sort SortSpec SortProofs IndexMap IndexMapSpec IndexMapProofs ImSharedProofs SubMap RoundTrip StackProofs ScattererProofs PostOffice PostOfficeProofs
  CellTypes DualGraph DualRows DualPairs DualMatch DualStorage DualLocal DualPlan DualCompact.
Open Scope nat_scope.

Fixpoint pos_of (x : nat * nat) (l : list (nat * nat)) : nat :=
  match l with [] => 0 | y :: t => if (fst x =? fst y) && (snd x =? snd y) then 0 else S (pos_of x t) end.
Lemma pos_of_nth l : NoDup l -> forall k x, nth_error l k = Some x -> pos_of x l = k.
Proof.
  induction 1 as [|y l Hy Hl IH]; intros [|k] x E; cbn in *; try discriminate.
  - injection E as ->. now rewrite !Nat.eqb_refl.
  - destruct (Nat.eqb_spec (fst x) (fst y)) as [E1|N1]; [|cbn [andb]; f_equal; now apply IH]. destruct (Nat.eqb_spec (snd x) (snd y)) as [E2|N2]; [|cbn [andb]; f_equal; now apply IH].
    exfalso. apply Hy. replace y with x; [now apply nth_error_In in E|]. destruct x, y; cbn in *; congruence.
Qed.
Lemma pos_of_in x l : In x l -> nth_error l (pos_of x l) = Some x.
Proof.
  induction l as [|y l IH]; [intros []|]. intros H. cbn. destruct (Nat.eqb_spec (fst x) (fst y)) as [E1|N1]; cbn [andb].
  - destruct (Nat.eqb_spec (snd x) (snd y)) as [E2|N2]; cbn.
    + destruct x, y; cbn in *; congruence.
    + destruct H as [->|H]; [congruence|auto].
  - cbn. destruct H as [->|H]; [congruence|auto].
Qed.
Lemma map_pos_of {V} (g : nat -> V) l : NoDup l -> map (fun x => g (pos_of x l)) l = map g (seq 0 (length l)).
Proof. intro H. symmetry. apply map_seq_nth. intros k s Hk. now rewrite (pos_of_nth l H k s Hk). Qed.

Lemma concat_concat_map {A B} (f : A -> list (list B)) l : concat (concat (map f l)) = concat (map (fun x => concat (f x)) l).
Proof. induction l as [|x l IH]; [reflexivity|]. cbn. now rewrite concat_app, IH. Qed.
Lemma per_process_ok {S} (l : list S) (C : S -> list nat) : per_process (map (fun s => length (C s)) l) (concat (map C l)) = Some (map (fun s => lsum (C s)) l).
Proof.
  unfold per_process. rewrite map_length, (omap_map _ (fun i => lsum (nth i (map C l) []))).
  - f_equal. apply map_seq_nth. intros k s Hk. f_equal. apply nth_error_nth. now rewrite nth_error_map_some, Hk.
  - intros i Hi. apply in_seq in Hi. pose proof (slice_at_concat (map C l) i (nth i (map C l) [])) as E. rewrite map_map in E. rewrite E; [reflexivity|].
    apply nth_error_nth'. rewrite map_length. lia.
Qed.

(** Counting the links of each cell *)
Lemma add_counts {I} (cell : I -> nat) (A : I -> list nat) n : forall Fl ne, length ne = n -> (forall f, In f Fl -> cell f < n) ->
  ofold (fun ne f => modify ne (cell f) (fun x => x + length (A f))) Fl ne =
  Some (map (fun c => nth c ne 0 + length (vals c (concat (map (fun f => map (pair (cell f)) (A f)) Fl)))) (seq 0 n)).
Proof.
  induction Fl as [|f Fl IH]; intros ne Hn Hc; cbn [ofold map concat].
  - f_equal. rewrite <- Hn. symmetry. apply nth_error_ext. intro c. rewrite nth_error_map_some. destruct (Nat.lt_ge_cases c (length ne)) as [H|H].
    + rewrite nth_error_seq by exact H. cbn [option_map plus]. cbn. rewrite Nat.add_0_r. symmetry. now apply nth_error_nth'.
    + transitivity (@None nat); [|symmetry; now apply nth_error_None]. replace (nth_error (seq 0 (length ne)) c) with (@None nat); [reflexivity|]. symmetry. apply nth_error_None. now rewrite seq_length.
  - destruct (modify_some ne (cell f) (fun x => x + length (A f))) as (ne' & E); [rewrite Hn; apply Hc; now left|]. rewrite E. cbn [obind].
    rewrite IH; [|now rewrite (modify_length _ _ _ _ E)|intros; apply Hc; now right]. f_equal. apply map_ext_in. intros c Hcs. apply in_seq in Hcs.
    rewrite vals_app, app_length. pose proof (modify_nth _ _ _ c _ E) as G.
    assert (V : length (vals c (map (pair (cell f)) (A f))) = if cell f =? c then length (A f) else 0).
    { clear. induction (A f) as [|x t IH]; [now destruct (cell f =? c)|]. unfold vals in *. cbn [map filter fst]. destruct (cell f =? c); cbn [map length] in *; lia. }
    rewrite V. destruct (cell f =? c).
    + rewrite (nth_error_nth' ne 0) in G by lia. cbn in G. apply nth_error_nth with (d := 0) in G. lia.
    + rewrite (nth_error_nth' ne 0) in G by lia. apply nth_error_nth with (d := 0) in G. lia.
Qed.

Section World.
Variables (P : nat) (nbx : (nat -> list nat) -> nat -> list nat) (L : nat -> option ldual) (ld : nat -> ldual).
Hypothesis Hnbx : nbx_oracle P nbx.
Hypothesis HP : 0 < P.
Hypothesis HL : forall q, q < P -> L q = Some (ld q).
Notation frows q := (ld_facets (ld q)).
Notation fcells q := (ld_cells (ld q)).
Notation nu q := (length (ld_cells (ld q))).
Hypothesis Hlen : forall q, q < P -> length (frows q) = nu q.
Hypothesis Hrow : forall q row, q < P -> In row (frows q) -> length row = ld_width (ld q) /\ exists v t, row = v :: t /\ (0 <= v < 2 ^ 63 - 1)%Z.
Hypothesis Hsig : forall q row, q < P -> In row (frows q) -> Forall (in_signed 64) row.
Hypothesis Hnum : (N.of_nat (lsum (map (fun q => nu q) (seq 0 P))) < 2 ^ 63)%N.
Variables (W : nat) (lo hi : Z).
Hypothesis HE : extent P L = Some (W, (lo, hi)).
Hypothesis HW : forall q, q < P -> ld_width (ld q) <= W.
Hypothesis Hlo : forall q f, q < P -> f < nu q -> (lo <= fv ld q f < hi)%Z.

Definition own (v : Z) : nat := match index_owner (Z.of_nat P) (v - lo) (hi - lo) with Some a => Z.to_nat a | None => 0 end.
Definition ow (q f : nat) : nat := own (fv ld q f).
Definition d2i (q : nat) : list (nat * nat) := d2i_of (nu q) (ow q).
Definition dst (q : nat) : list nat := dests_of (nu q) (ow q).
Definition off (q : nat) : nat := lsum (map (fun s => ld_nodes (ld s)) (seq 0 q)).
Definition itm (q f : nat) : frow := (pad W (row_at ld q f), nth f (fcells q) 0 + off q).
Definition B (q d : nat) : list (nat * frow) := map (fun f => (f, itm q f)) (vals d (d2i q)).

Lemma own_ok v : (lo <= v < hi)%Z -> index_owner (Z.of_nat P) (v - lo) (hi - lo) = Some (Z.of_nat (own v)) /\ own v < P.
Proof.
  intro Hv. destruct (index_owner_spec (Z.of_nat P) (v - lo) (hi - lo)) as (o & E & Ho & _); [lia|lia|]. unfold own. rewrite E. rewrite Z2Nat.id by lia. split; [reflexivity|lia].
Qed.
Lemma row_nth q f : q < P -> f < nu q -> nth_error (frows q) f = Some (row_at ld q f) /\ hd_error (row_at ld q f) = Some (fv ld q f) /\ length (row_at ld q f) <= W.
Proof.
  intros Hq Hf. destruct (row_in P ld Hlen q f Hq Hf) as (Hi & E). destruct (Hrow q _ Hq Hi) as (H1 & v & t & E2 & _). specialize (HW q Hq). split; [exact E|].
  split; [|lia]. unfold fv. rewrite E2. reflexivity.
Qed.
Lemma dst_lt q d : q < P -> In d (dst q) -> d < P.
Proof. intros Hq Hd. apply in_dests_of in Hd as (f & Hf & ->). unfold ow. apply own_ok. now apply Hlo. Qed.

Lemma plan_ok q : q < P -> dual_plan P L q = Some (dst q, (map (fun d => length (vals d (d2i q))) (dst q), map (ki_of (nu q) (ow q)) (seq 0 (nu q)))).
Proof.
  intro Hq. unfold dual_plan. rewrite (HL q Hq). cbn [obind]. rewrite HE. cbn [obind].
  rewrite (omap_map _ (fun f => (ow q f, f))).
  2:{ intros f Hf. apply in_seq in Hf. destruct (row_nth q f Hq) as (E1 & E2 & _); [lia|]. rewrite E1. cbn [obind]. rewrite E2. cbn [obind].
      pose proof (Hlo q f Hq ltac:(lia)) as Hv. destruct (Z.leb_spec 0 (fv ld q f - lo)) as [_|]; [|lia]. destruct (Z.ltb_spec (fv ld q f - lo) (hi - lo)) as [_|]; [|lia]. cbn [andb].
      destruct (own_ok _ Hv) as (E3 & _). rewrite E3. cbn [obind]. rewrite Nat2Z.id. reflexivity. }
  cbn [obind]. fold (d2i_of (nu q) (ow q)). destruct (key_runs_spec (d2i_of (nu q) (ow q))) as (_ & E). rewrite E. cbn [obind]. rewrite map_length.
  fold (dests_of (nu q) (ow q)). rewrite positions_ok. cbn [obind].
  assert (G : forall l, omap (fun x : option nat => x) (map (fun f => Some (ki_of (nu q) (ow q) f)) l) = Some (map (ki_of (nu q) (ow q)) l)).
  { induction l as [|x l IH]; [reflexivity|]. cbn. rewrite IH. reflexivity. }
  rewrite G. cbn [obind]. rewrite !map_map. cbn [fst snd]. rewrite map_id. reflexivity.
Qed.
Lemma dual_dest_ok q : q < P -> dual_dest P L q = dst q.
Proof. intro Hq. unfold dual_dest. rewrite (plan_ok q Hq). reflexivity. Qed.
Lemma off_ok q : q <= P -> cell_offset L q = Some (off q).
Proof.
  intro Hq. unfold cell_offset. rewrite (omap_map _ (fun s => ld_nodes (ld s))); [reflexivity|]. intros s Hs. apply in_seq in Hs. rewrite HL by lia. reflexivity.
Qed.
Lemma pack_ok q : q < P -> dual_pack P L q = Some (concat (map (B q) (dst q)), (map (fun d => length (B q d)) (dst q), psums (map (fun d => length (B q d)) (dst q)))).
Proof.
  intro Hq. unfold dual_pack. rewrite (HL q Hq). cbn [obind]. rewrite HE. cbn [obind]. rewrite (off_ok q) by lia. cbn [obind]. rewrite (plan_ok q Hq). cbn [obind].
  rewrite (omap_map _ (fun f => (ki_of (nu q) (ow q) f, (f, itm q f)))).
  2:{ intros f Hf. apply in_seq in Hf. rewrite nth_error_map_some, nth_error_seq by lia. cbn [option_map obind plus].
      destruct (row_nth q f Hq) as (E1 & _ & E3); [lia|]. rewrite E1. cbn [obind]. rewrite (nth_error_nth' (fcells q) 0) by lia. cbn [obind].
      destruct (Nat.leb_spec (length (row_at ld q f)) W) as [_|]; [|lia]. reflexivity. }
  cbn [obind]. destruct (place_by_dest (nu q) (ow q) (fun f => (f, itm q f)) (0, ([], 0))) as (pos & E). cbv zeta in E. fold (d2i q) (dst q) in E.
  rewrite E. cbn [obind]. unfold B.
  assert (El : map (fun d => length (vals d (d2i q))) (dst q) = map (fun d => length (map (fun f => (f, itm q f)) (vals d (d2i q)))) (dst q)) by (apply map_ext; intro d; now rewrite map_length).
  rewrite <- El. reflexivity.
Qed.
Definition Bs (q d : nat) : list frow := map snd (B q d).
Lemma Bs_length q d : length (Bs q d) = length (B q d). Proof. apply map_length. Qed.
Lemma send_ok q : q < P -> dual_send P L q = Some (concat (map (Bs q) (dst q)), (map (fun d => length (Bs q d)) (dst q), psums (map (fun d => length (Bs q d)) (dst q)))).
Proof.
  intro Hq. unfold dual_send. rewrite (pack_ok q Hq). cbn [obind]. rewrite concat_map, map_map.
  assert (El : map (fun d => length (Bs q d)) (dst q) = map (fun d => length (B q d)) (dst q)) by (apply map_ext; intro; apply Bs_length). rewrite El. reflexivity.
Qed.

Definition srcs : nat -> list nat := dual_src P nbx L.
Lemma graph : graph_ok P srcs (dual_dest P L).
Proof.
  apply (oracle_graph P nbx (dual_dest P L) Hnbx).
  - intros q Hq. rewrite (dual_dest_ok q Hq). apply sort_uniq_NoDup.
  - intros q d Hq Hd. rewrite (dual_dest_ok q Hq) in Hd. exact (dst_lt q d Hq Hd).
Qed.
Lemma srcs_in r s : r < P -> In s (srcs r) <-> s < P /\ In r (dst s).
Proof.
  intro Hr. destruct (graph r Hr) as (_ & _ & _ & H). rewrite H. split; intros (H1 & H2); (split; [exact H1|]); [rewrite <- (dual_dest_ok s H1); exact H2|rewrite (dual_dest_ok s H1); exact H2].
Qed.
Lemma srcs_NoDup r : r < P -> NoDup (srcs r). Proof. intro Hr. apply (graph r Hr). Qed.
Definition recv (r : nat) : list frow := concat (map (fun s => Bs s r) (srcs r)).
Lemma recv_ok r : r < P -> dual_recv P nbx L r = Some (recv r, map (fun s => length (Bs s r)) (srcs r)).
Proof.
  intro Hr. unfold dual_recv. apply (exchange_spec P srcs (dual_dest P L) (dual_send P L) Bs r graph Hr). intros s Hs. apply srcs_in in Hs as (Hs & _); [|exact Hr].
  rewrite (dual_dest_ok s Hs). now apply send_ok.
Qed.

(** ** Matching: the received items are known by rank and facet *)
Definition ids (r : nat) : list (nat * nat) := concat (map (fun s => map (pair s) (vals r (d2i s))) (srcs r)).
Lemma recv_ids r : recv r = map (fun sf => itm (fst sf) (snd sf)) (ids r).
Proof.
  unfold recv, ids. rewrite concat_map, map_map. f_equal. apply map_ext. intro s. unfold Bs, B. rewrite !map_map. reflexivity.
Qed.
Lemma ids_in r s f : r < P -> In (s, f) (ids r) <-> s < P /\ f < nu s /\ ow s f = r.
Proof.
  intro Hr. unfold ids. rewrite in_concat. split.
  - intros (l & Hl & H). apply in_map_iff in Hl as (s' & <- & Hs). apply in_map_iff in H as (f' & E & H). injection E as -> ->. apply vals_in, in_d2i_of in H as (H & E). apply srcs_in in Hs as (Hs & _); auto.
  - intros (Hs & Hf & E). exists (map (pair s) (vals r (d2i s))). split.
    + apply (in_map (fun s => map (pair s) (vals r (d2i s)))). apply srcs_in; [exact Hr|]. split; [exact Hs|]. apply in_dests_of. eauto.
    + apply in_map. apply vals_in, in_d2i_of. auto.
Qed.
Lemma ids_NoDup r : r < P -> NoDup (ids r).
Proof.
  intro Hr. unfold ids. apply NoDup_concat; [now apply srcs_NoDup| |].
  - intros s _. apply FinFun.Injective_map_NoDup; [intros a b E; now injection E|apply vals_d2i_of_NoDup].
  - intros a b x _ _ Ha Hb. apply in_map_iff in Ha as (f & <- & _). apply in_map_iff in Hb as (g & E & _). now injection E.
Qed.
Lemma ids_length r : r < P -> length (ids r) <= lsum (map (fun q => nu q) (seq 0 P)).
Proof.
  intro Hr. set (all := concat (map (fun q => map (pair q) (seq 0 (nu q))) (seq 0 P))).
  assert (E : lsum (map (fun q => nu q) (seq 0 P)) = length all).
  { unfold all. rewrite <- lsum_concat_length, map_map. f_equal. apply map_ext. intro q. now rewrite map_length, seq_length. }
  rewrite E. apply NoDup_incl_length; [now apply ids_NoDup|]. intros (s, f) H. apply ids_in in H as (Hs & Hf & _); [|exact Hr].
  apply in_concat. exists (map (pair s) (seq 0 (nu s))). split; [apply (in_map (fun q => map (pair q) (seq 0 (nu q)))), in_seq; lia|apply in_map, in_seq; lia].
Qed.

Lemma recv_row r row : r < P -> In row (map fst (recv r)) -> length row = W /\ Forall (in_signed 64) row /\ 0 < W.
Proof.
  intros Hr H. rewrite recv_ids, map_map in H. apply in_map_iff in H as ((s, f) & <- & H). cbn [fst snd itm]. apply ids_in in H as (Hs & Hf & _); [|exact Hr].
  destruct (row_nth s f Hs Hf) as (E1 & E2 & E3). split; [now apply pad_length|]. split.
  - unfold pad. apply Forall_app. split; [apply (Hsig s); [exact Hs|now apply nth_error_In in E1]|]. apply Forall_forall. intros v Hv. apply repeat_spec in Hv. subst v. apply in_signed_vertex. lia.
  - destruct (row_at ld s f); [discriminate|cbn in E3; lia].
Qed.

Lemma concat_row (keys : list (list Z)) w j : Forall (fun k => length k = w) keys -> j < length keys -> row (concat keys) w w j = nth j keys [].
Proof.
  intros H Hj. unfold row. rewrite Forall_forall in H.
  assert (G : forall keys j k, (forall x, In x keys -> length x = w) -> j < length keys -> k < w -> nth (j * w + k) (concat keys) 0%Z = nth k (nth j keys []) 0%Z).
  { clear. induction keys as [|x keys IH]; intros j k H Hj Hk; [cbn in Hj; lia|]. destruct j as [|j]; cbn [concat nth].
    - rewrite app_nth1; [reflexivity|]. rewrite (H x (or_introl eq_refl)). lia.
    - rewrite app_nth2; rewrite (H x (or_introl eq_refl)); cbn [Nat.mul]; [|lia]. replace (w + j * w + k - w) with (j * w + k) by lia. apply IH; [intros; apply H; now right|cbn in Hj; lia|exact Hk]. }
  apply nth_error_ext. intro k. rewrite nth_error_map_some. destruct (Nat.lt_ge_cases k w) as [Hk|Hk].
  - rewrite nth_error_seq by exact Hk. cbn [option_map plus]. rewrite (G keys j k H Hj Hk). symmetry. apply nth_error_nth'. rewrite (H (nth j keys [])); [exact Hk|now apply nth_In].
  - transitivity (@None Z); [|symmetry; apply nth_error_None; rewrite (H (nth j keys [])); [exact Hk|now apply nth_In]].
    replace (nth_error (seq 0 w) k) with (@None nat); [reflexivity|]. symmetry. apply nth_error_None. rewrite seq_length. exact Hk.
Qed.

Lemma match_ok r : r < P -> exists kvs,
  dual_match P nbx L r = Some (map (fun k => length (vals k kvs)) (seq 0 (length (ids r))), concat (map (fun k => vals k kvs) (seq 0 (length (ids r))))) /\
  forall k c, In c (vals k kvs) <-> exists k' s f s' f', nth_error (ids r) k = Some (s, f) /\ nth_error (ids r) k' = Some (s', f') /\ k <> k' /\ fst (itm s f) = fst (itm s' f') /\ c = snd (itm s' f').
Proof.
  intro Hr. unfold dual_match. rewrite HE. cbn [obind]. rewrite (recv_ok r Hr). cbn [obind]. set (keys := map fst (recv r)).
  assert (Ln : length (recv r) = length (ids r)) by (rewrite recv_ids; apply map_length).
  assert (Lk : length keys = length (ids r)) by (unfold keys; now rewrite map_length).
  assert (Hk : Forall (fun k => length k = W) keys) by (apply Forall_forall; intros k H; now apply (recv_row r k Hr)).
  assert (Hord : exists order, sort_by_perm 64 16 (concat keys) W W = Some order /\ Permutation (seq 0 (length keys)) order /\ StronglySorted (fun i j => lex_le (nth i keys []) (nth j keys [])) order).
  { destruct keys as [|k0 keys0] eqn:Ek; [exists []; split; [reflexivity|split; constructor]|]. rewrite <- Ek in *.
    destruct (recv_row r k0 Hr) as (_ & _ & Wp); [fold keys; rewrite Ek; now left|].
    assert (Lc : length (concat keys) = length keys * W).
    { clear - Hk. induction Hk as [|x l Hx Hl IH]; [reflexivity|]. cbn [concat]. rewrite app_length, IH, Hx. reflexivity. }
    destruct (sort_by_perm_correct 64 16 (concat keys) W W (length keys)) as (order & E & H1 & H2 & _); [reflexivity|reflexivity| |exact Lc|exact Wp|lia| |].
    - pose proof (ids_length r Hr). rewrite Lk. clear - H Hnum. lia.
    - apply Forall_forall. intros v Hv. apply in_concat in Hv as (k & Hkk & Hv). destruct (recv_row r k Hr Hkk) as (_ & S & _). rewrite Forall_forall in S. now apply S.
    - exists order. split; [exact E|]. split; [exact H1|]. eapply SS_impl_in; [|exact H2]. intros i j Hi Hj. cbv beta. assert (Ho : forall i, In i order -> i < length keys) by (intros z Hz; apply (Permutation_in _ (Permutation_sym H1)), in_seq in Hz; lia). rewrite !concat_row by (auto). auto. }
  destruct Hord as (order & Eo & Hp & Hs). rewrite Eo. cbn [obind]. destruct (matched_pairs keys order Hp Hs) as (gs & Eg & _ & _ & _ & HD). rewrite Eg. cbn [obind].
  set (D := concat (map (both (fun i => i)) (concat (map all_pairs gs)))) in *.
  rewrite (omap_map _ (fun p : nat * nat => (fst p, snd (nth (snd p) (recv r) ([], 0))))).
  2:{ intros (p, q) H. apply HD in H as (_ & _ & Hq & _). rewrite Lk, <- Ln in Hq. cbn [fst snd]. rewrite (nth_error_nth' (recv r) ([], 0) Hq). reflexivity. }
  cbn [obind]. set (kvs := map (fun p : nat * nat => (fst p, snd (nth (snd p) (recv r) ([], 0)))) D).
  assert (Hf : Forall (fun kv => fst kv < length (ids r)) kvs).
  { apply Forall_forall. intros kv H. apply in_map_iff in H as ((p, q) & <- & H). apply HD in H as (_ & H & _). cbn. lia. }
  rewrite Ln. rewrite count_keys_spec by (rewrite Forall_map; exact Hf). cbn [obind]. rewrite map_vals_counts.
  destruct (place_full (length (ids r)) kvs 0 (lsum (map (fun k => length (vals k kvs)) (seq 0 (length (ids r))))) Hf) as (pos & E); [now apply vals_total|].
  rewrite E. cbn [obind]. exists kvs. split; [reflexivity|]. intros k c. rewrite vals_in. unfold kvs. rewrite in_map_iff.
  assert (Hid : forall k s f, nth_error (ids r) k = Some (s, f) -> nth_error (recv r) k = Some (itm s f) /\ nth_error keys k = Some (fst (itm s f))).
  { intros k0 s f H. unfold keys. rewrite recv_ids, !nth_error_map_some, H. split; reflexivity. }
  split.
  - intros ((p, q) & E1 & H). cbn [fst snd] in E1. injection E1 as -> <-. apply HD in H as (N & Hp1 & Hq1 & Ekey). rewrite Lk in Hp1, Hq1.
    destruct (nth_error_lt (ids r) k Hp1) as ((s, f) & Esf). destruct (nth_error_lt (ids r) q Hq1) as ((s', f') & Esf').
    destruct (Hid _ _ _ Esf) as (_ & K1). destruct (Hid _ _ _ Esf') as (R2 & K2). exists q, s, f, s', f'. split; [exact Esf|]. split; [exact Esf'|]. split; [exact N|]. split; [congruence|].
    now rewrite (nth_error_nth _ _ _ R2).
  - intros (k' & s & f & s' & f' & E1 & E2 & N & E3 & ->). destruct (Hid _ _ _ E1) as (_ & K1). destruct (Hid _ _ _ E2) as (R2 & K2). exists (k, k'). cbn [fst snd].
    split; [now rewrite (nth_error_nth _ _ _ R2)|]. apply HD. apply nth_error_bound in E1, E2. rewrite Lk. split; [exact N|]. split; [exact E1|]. split; [exact E2|]. congruence.
Qed.

(** ** The way back *)
(** The answer to item [k] of post office [r] *)
Definition answ (r k : nat) : list nat :=
  match dual_match P nbx L r with Some (counts, data) => match slice_at data (psums counts) k with Some x => x | None => [] end | None => [] end.
Lemma answ_ok r : r < P -> dual_match P nbx L r = Some (map (fun k => length (answ r k)) (seq 0 (length (ids r))), concat (map (answ r) (seq 0 (length (ids r))))) /\
  forall k c, k < length (ids r) -> In c (answ r k) <-> exists k' s f s' f', nth_error (ids r) k = Some (s, f) /\ nth_error (ids r) k' = Some (s', f') /\ k <> k' /\ fst (itm s f) = fst (itm s' f') /\ c = snd (itm s' f').
Proof.
  intro Hr. destruct (match_ok r Hr) as (kvs & E & Hk).
  assert (A : forall k, k < length (ids r) -> answ r k = vals k kvs).
  { intros k H. unfold answ. rewrite E. now rewrite links_slice. }
  split.
  - rewrite E. f_equal. f_equal; [|f_equal]; apply map_ext_in; intros k H; apply in_seq in H; rewrite A by lia; reflexivity.
  - intros k c H. rewrite A by exact H. apply Hk.
Qed.
Definition Aid (r : nat) (sf : nat * nat) : list nat := answ r (pos_of sf (ids r)).
Definition Cb (r s : nat) : list (list nat) := map (fun f => Aid r (s, f)) (vals r (d2i s)).
Lemma Cb_all r : r < P -> concat (map (Cb r) (srcs r)) = map (answ r) (seq 0 (length (ids r))).
Proof.
  intro Hr. rewrite <- map_pos_of by (apply (ids_NoDup r Hr)). unfold ids at 2. rewrite concat_map, map_map. f_equal. apply map_ext. intro s. unfold Cb. rewrite map_map. reflexivity.
Qed.
Lemma Cb_length r s : length (Cb r s) = length (Bs s r).
Proof. unfold Cb, Bs, B. now rewrite !map_length. Qed.

Lemma recv_counts_ok q : q < P -> recv_counts P nbx L q = Some (concat (map (fun d => map (@length nat) (Cb d q)) (dst q))).
Proof.
  intro Hq. unfold recv_counts. rewrite <- (dual_dest_ok q Hq).
  apply (neigh_alltoallv_spec P (dual_dest P L) srcs (send_counts P nbx L) (items_per_dest P L) (fun r s => map (@length nat) (Cb r s)) q (graph_ok_sym _ _ _ graph) Hq).
  - intros r Hr. rewrite (dual_dest_ok q Hq) in Hr. apply (dst_lt q r Hq) in Hr. unfold send_counts.
    destruct (answ_ok r Hr) as (E & _). rewrite E. cbn [obind]. rewrite (recv_ok r Hr). cbn [obind].
    assert (E1 : map (fun k => length (answ r k)) (seq 0 (length (ids r))) = concat (map (fun s => map (@length nat) (Cb r s)) (srcs r))).
    { rewrite <- (map_map (answ r) (@length nat)), <- (Cb_all r Hr), concat_map, map_map. reflexivity. }
    assert (E2 : map (fun s => length (Bs s r)) (srcs r) = map (fun d => length (map (@length nat) (Cb r d))) (srcs r)) by (apply map_ext; intro s; now rewrite map_length, Cb_length).
    rewrite E1, E2. reflexivity.
  - unfold items_per_dest. rewrite (plan_ok q Hq). cbn [obind]. f_equal.
    rewrite (dual_dest_ok q Hq). apply map_ext. intro d. rewrite map_length. unfold Cb. now rewrite map_length.
Qed.

Lemma recv_edges_ok q : q < P -> recv_edges P nbx L q = Some (concat (map (fun d => concat (Cb d q)) (dst q))).
Proof.
  intro Hq. unfold recv_edges. rewrite <- (dual_dest_ok q Hq).
  apply (neigh_alltoallv_spec P (dual_dest P L) srcs (send_edges P nbx L) _ (fun r s => concat (Cb r s)) q (graph_ok_sym _ _ _ graph) Hq).
  - intros r Hr. rewrite (dual_dest_ok q Hq) in Hr. apply (dst_lt q r Hq) in Hr. unfold send_edges.
    destruct (answ_ok r Hr) as (E & _). rewrite E. cbn [obind]. rewrite (recv_ok r Hr). cbn [obind].
    assert (E1 : map (fun k => length (answ r k)) (seq 0 (length (ids r))) = concat (map (fun s => map (@length nat) (Cb r s)) (srcs r))).
    { rewrite <- (map_map (answ r) (@length nat)), <- (Cb_all r Hr), concat_map, map_map. reflexivity. }
    assert (E2 : map (fun s => length (Bs s r)) (srcs r) = map (fun d => length (map (@length nat) (Cb r d))) (srcs r)) by (apply map_ext; intro s; now rewrite map_length, Cb_length).
    rewrite E1, E2, per_process_ok. cbn [obind].
    assert (E3 : map (fun s => lsum (map (@length nat) (Cb r s))) (srcs r) = map (fun d => length (concat (Cb r d))) (srcs r)) by (apply map_ext; intro s; apply lsum_concat_length).
    rewrite E3, <- (Cb_all r Hr), concat_concat_map. reflexivity.
  - unfold items_per_dest. rewrite (plan_ok q Hq). cbn [obind]. rewrite (recv_counts_ok q Hq). cbn [obind].
    replace (map (fun d => length (vals d (d2i q))) (dst q)) with (map (fun d => length (map (@length nat) (Cb d q))) (dst q)) by (apply map_ext; intro d; unfold Cb; now rewrite !map_length).
    rewrite per_process_ok. f_equal. rewrite (dual_dest_ok q Hq). apply map_ext. intro d. apply lsum_concat_length.
Qed.

(** ** The rows *)
Definition A (q f : nat) : list nat := Aid (ow q f) (q, f).
Definition Fq (q : nat) : list nat := concat (map (fun d => vals d (d2i q)) (dst q)).
Definition cl (q f : nat) : nat := nth f (fcells q) 0.
Lemma buf_eq q : concat (map (B q) (dst q)) = map (fun f => (f, itm q f)) (Fq q).
Proof. unfold Fq. rewrite concat_map, map_map. reflexivity. Qed.
Lemma Cb_eq d q : Cb d q = map (A q) (vals d (d2i q)).
Proof. unfold Cb. apply map_ext_in. intros f Hf. apply vals_in, in_d2i_of in Hf as (_ & Hf). unfold A. now rewrite <- Hf. Qed.
Lemma counts_eq q : concat (map (fun d => map (@length nat) (Cb d q)) (dst q)) = map (@length nat) (map (A q) (Fq q)).
Proof. unfold Fq. rewrite map_map, concat_map, map_map. f_equal. apply map_ext. intro d. rewrite Cb_eq, map_map. reflexivity. Qed.
Lemma edges_eq q : concat (map (fun d => concat (Cb d q)) (dst q)) = concat (map (A q) (Fq q)).
Proof. unfold Fq. rewrite concat_map, concat_concat_map, map_map. f_equal. apply map_ext. intro d. now rewrite Cb_eq. Qed.
Lemma Fq_in q f : In f (Fq q) <-> f < nu q.
Proof.
  clear - ld.
  pose proof (all_placed (nu q) (ow q)) as H. fold (d2i q) (dst q) (Fq q) in H. split; intro K; [apply (Permutation_in _ H), in_seq in K; lia|apply (Permutation_in _ (Permutation_sym H)), in_seq; lia].
Qed.

Lemma row_head q f : q < P -> f < nu q -> hd 0%Z (fst (itm q f)) = fv ld q f.
Proof.
  intros Hq Hf. destruct (row_nth q f Hq Hf) as (_ & E & _). unfold itm, pad. cbn [fst]. destruct (row_at ld q f); [discriminate|]. cbn in *. congruence.
Qed.
Lemma A_in q f d : q < P -> f < nu q -> In d (A q f) <->
  exists s g, s < P /\ g < nu s /\ (s, g) <> (q, f) /\ pad W (row_at ld q f) = pad W (row_at ld s g) /\ d = cl s g + off s.
Proof.
  intros Hq Hf. assert (Hr : ow q f < P) by (apply own_ok; now apply Hlo). set (r := ow q f).
  assert (Hid : In (q, f) (ids r)) by (apply ids_in; auto). pose proof (pos_of_in _ _ Hid) as Hk. pose proof (nth_error_bound _ _ _ Hk) as Bk.
  destruct (answ_ok r Hr) as (_ & HA). unfold A. fold r. unfold Aid. rewrite (HA _ d Bk). clear HA. pose proof (ids_NoDup r Hr) as Nd. split.
  - intros (k' & s & f0 & s' & f' & E1 & E2 & N & E3 & ->). rewrite Hk in E1. injection E1 as <- <-. exists s', f'. pose proof (nth_error_In _ _ E2) as I2. apply ids_in in I2 as (H1 & H2 & _); [|exact Hr].
    split; [exact H1|]. split; [exact H2|]. split; [|split; [exact E3|reflexivity]]. intro E. apply N. rewrite E in E2. apply (pos_of_nth _ Nd) in E2. now rewrite E2.
  - intros (s & g & Hs & Hg & N & E & ->). assert (Eo : ow s g = r).
    { unfold r, ow. f_equal. rewrite <- (row_head s g Hs Hg), <- (row_head q f Hq Hf). unfold itm. cbn [fst]. now rewrite E. }
    assert (I2 : In (s, g) (ids r)) by (apply ids_in; auto). pose proof (pos_of_in _ _ I2) as Hk'. exists (pos_of (s, g) (ids r)), q, f, s, g.
    split; [exact Hk|]. split; [exact Hk'|]. split; [|split; [exact E|reflexivity]]. intro Ek. rewrite Ek in Hk. congruence.
Qed.

Variables (nc : nat -> nat) (kvl : nat -> list (nat * nat)).
Hypothesis Hoffs : forall q, q < P -> ld_offsets (ld q) = psums (map (fun c => length (vals c (kvl q))) (seq 0 (nc q))).
Hypothesis Hdata : forall q, q < P -> ld_data (ld q) = concat (map (fun c => vals c (kvl q)) (seq 0 (nc q))).
Hypothesis Hcells : forall q c, q < P -> In c (fcells q) -> c < nc q.

Definition loc (q : nat) : list (nat * nat) := concat (map (fun i => map (fun x => (i, x + off q)) (vals i (kvl q))) (seq 0 (nc q))).
Definition rem (q : nat) : list (nat * nat) := concat (map (fun f => map (pair (cl q f)) (A q f)) (Fq q)).
Lemma nodes q : q < P -> ld_nodes (ld q) = nc q.
Proof. intro Hq. unfold ld_nodes. rewrite (Hoffs q Hq), psums_length, map_length, seq_length. lia. Qed.
Lemma cl_lt q f : q < P -> f < nu q -> cl q f < nc q.
Proof. intros Hq Hf. apply (Hcells q); [exact Hq|]. now apply nth_In. Qed.

Lemma vals_loc q c : c < nc q -> vals c (loc q) = map (fun x => x + off q) (vals c (kvl q)).
Proof.
  clear - ld nc kvl. intro Hc. unfold loc. rewrite vals_concat, map_map.
  assert (G : forall l, NoDup l -> concat (map (fun i => vals c (map (fun x => (i, x + off q)) (vals i (kvl q)))) l) = if mem c l then map (fun x => x + off q) (vals c (kvl q)) else []).
  { assert (V : forall i l, vals c (map (fun x => (i, x + off q)) l) = if c =? i then map (fun x => x + off q) l else []).
    { intros i l. induction l as [|x l IH]; [now destruct (c =? i)|]. unfold vals in *. cbn [map filter fst]. rewrite (Nat.eqb_sym i c). destruct (c =? i); cbn [map snd]; [now rewrite IH|exact IH]. }
    induction 1 as [|i l Hi Hl IH]; [reflexivity|]. cbn [map concat mem existsb]. rewrite V, IH. unfold mem. cbn [existsb]. destruct (Nat.eqb_spec c i) as [->|N]; cbn [orb]; [|reflexivity].
    destruct (existsb (Nat.eqb i) l) eqn:Em; [|apply app_nil_r]. exfalso. apply Hi. apply mem_iff. exact Em. }
  rewrite G by apply seq_NoDup. destruct (mem c (seq 0 (nc q))) eqn:Em; [reflexivity|]. exfalso. assert (K : In c (seq 0 (nc q))) by (apply in_seq; lia). apply mem_iff in K. congruence.
Qed.

Lemma ofold_seq_nth {St I} (g : St -> nat -> option St) (h : St -> I -> option St) (Fl : list I) s : (forall i f s, nth_error Fl i = Some f -> g s i = h s f) ->
  ofold g (seq 0 (length Fl)) s = ofold h Fl s.
Proof.
  clear. revert s g. induction Fl as [|f Fl IH]; intros s g H; [reflexivity|]. cbn [length seq ofold]. rewrite (H 0 f s eq_refl). destruct (h s f) as [s'|]; [|reflexivity]. cbn [obind].
  rewrite <- seq_shift, ofold_map. apply IH. intros i f' s0 E. exact (H (S i) f' s0 E).
Qed.

Definition rows (q : nat) : list (list nat) := map (fun c => sort_uniq (vals c (loc q ++ rem q))) (seq 0 (nc q)).
Theorem nonlocal_rows_ok q : q < P -> nonlocal_rows P nbx L q = Some (psums (map (@length nat) (rows q)), concat (rows q)).
Proof.
  intro Hq. unfold nonlocal_rows. rewrite (HL q Hq). cbn [obind]. rewrite (off_ok q) by lia. cbn [obind]. rewrite (pack_ok q Hq). cbn [obind].
  rewrite (recv_counts_ok q Hq). cbn [obind]. rewrite (recv_edges_ok q Hq). cbn [obind]. rewrite buf_eq, counts_eq, edges_eq, (Hoffs q Hq), adj_diff_psums.
  assert (Lc : length (map (@length nat) (map (A q) (Fq q))) = length (Fq q)) by (now rewrite !map_length). rewrite Lc.
  assert (Hf : forall f, In f (Fq q) -> nth_error (fcells q) f = Some (cl q f)) by (intros f H; apply Fq_in in H; now apply nth_error_nth').
  rewrite (ofold_seq_nth _ (fun ne f => modify ne (cl q f) (fun x => x + length (A q f))) (Fq q)).
  2:{ intros i f s Ef. rewrite nth_error_map_some, Ef. cbn [option_map obind fst]. rewrite Hf by (eapply nth_error_In; exact Ef). cbn [obind]. rewrite !nth_error_map_some, Ef. reflexivity. }
  rewrite (add_counts (cl q) (A q) (nc q)) by (rewrite ?map_length, ?seq_length; auto; intros f H; apply Fq_in in H; now apply cl_lt). cbn [obind].
  rewrite (nodes q Hq).
  rewrite (omap_map _ (fun i => map (fun x => (i, x + off q)) (vals i (kvl q)))).
  2:{ intros i Hi. apply in_seq in Hi. rewrite (Hdata q Hq), links_slice by lia. reflexivity. }
  cbn [obind]. fold (loc q).
  rewrite (omap_map _ (fun i => map (pair (cl q (nth i (Fq q) 0))) (A q (nth i (Fq q) 0)))).
  2:{ intros i Hi. apply in_seq in Hi. assert (Ef : nth_error (Fq q) i = Some (nth i (Fq q) 0)) by (apply nth_error_nth'; lia).
      rewrite nth_error_map_some, Ef. cbn [option_map obind fst]. rewrite Hf by (eapply nth_error_In; exact Ef). cbn [obind].
      rewrite (slice_at_concat (map (A q) (Fq q)) i (A q (nth i (Fq q) 0))) by (now rewrite nth_error_map_some, Ef). reflexivity. }
  cbn [obind].
  assert (Er : concat (map (fun i => map (pair (cl q (nth i (Fq q) 0))) (A q (nth i (Fq q) 0))) (seq 0 (length (Fq q)))) = rem q).
  { unfold rem. f_equal. apply map_seq_nth. intros k f Hk. now rewrite (nth_error_nth _ _ _ Hk). }
  rewrite Er.
  assert (Hall : Forall (fun kv => fst kv < nc q) (loc q ++ rem q)).
  { apply Forall_app. split; apply Forall_forall; intros kv H; apply in_concat in H as (l & Hl & H); apply in_map_iff in Hl as (i & <- & Hi); apply in_map_iff in H as (x & <- & Hx); cbn [fst].
    - apply in_seq in Hi. lia.
    - apply Fq_in in Hi. now apply cl_lt. }
  assert (En : map (fun c => nth c (map (fun c0 => length (vals c0 (kvl q))) (seq 0 (nc q))) 0 + length (vals c (concat (map (fun f => map (pair (cl q f)) (A q f)) (Fq q))))) (seq 0 (nc q)) =
    map (fun c => length (vals c (loc q ++ rem q))) (seq 0 (nc q))).
  { apply map_ext_in. intros c Hc. apply in_seq in Hc. rewrite vals_app, app_length, vals_loc, map_length by lia. f_equal. apply nth_error_nth. rewrite nth_error_map_some, nth_error_seq by lia. reflexivity. }
  rewrite En. destruct (place_full (nc q) (loc q ++ rem q) 0 (last (psums (map (fun c => length (vals c (loc q ++ rem q))) (seq 0 (nc q)))) 0) Hall) as (pos & E); [now rewrite last_psums, vals_total|].
  rewrite E. cbn [obind]. pose proof (compact_ok (map (fun k => vals k (loc q ++ rem q)) (seq 0 (nc q)))) as C. rewrite !map_map in C. rewrite C. unfold rows. rewrite map_map. reflexivity.
Qed.
End World.
