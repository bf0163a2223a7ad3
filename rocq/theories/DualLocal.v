(** The local dual graph. *)
From Verif Require Import Base BaseProofs Algo AlgoProofs BucketProofs CellTypes Sort SortSpec SortProofs DualGraph DualGraphSpec DualRows DualPairs DualMatch DualStorage.
Open Scope nat_scope.

Notation occ := ((nat * nat) * list Z)%type.   (* cell, local facet, vertices *)

Section Occs.
Variables (ts : list cell_type) (arrs : list (list Z)).
Definition cell_occs (t : cell_type) (a : list Z) (co c : nat) : list occ :=
  map (fun ifv => ((c + co, fst ifv), fverts t a c (snd ifv))) (combine (seq 0 (length (facets t))) (facets t)).
Definition block_occs (j : nat) : list occ :=
  match nth_error ts j, nth_error arrs j with
  | Some t, Some a => concat (map (cell_occs t a (co_of ts arrs j)) (seq 0 (block_cells t a))) | _, _ => [] end.
Definition all_occs : list occ := concat (map block_occs (seq 0 (length arrs))).
Definition val_of (w : nat) (o : occ) : frow := (fkey w (snd o), fst (fst o)).

Lemma map_snd_combine {A B} (l : list A) (m : list B) : length l = length m -> map snd (combine l m) = m.
Proof. revert m. induction l as [|x l IH]; intros [|y m] H; cbn in *; try lia; [reflexivity|]. f_equal. apply IH. lia. Qed.
Lemma all_vals_occs w : all_vals ts arrs w = map (val_of w) all_occs.
Proof.
  unfold all_vals, all_occs. rewrite concat_map, map_map. f_equal. apply map_ext. intro j. unfold block_vals, block_occs.
  destruct (nth_error ts j) as [t|]; [|reflexivity]. destruct (nth_error arrs j) as [a|]; [|reflexivity].
  unfold bvals. rewrite concat_map, map_map. f_equal. apply map_ext. intro c. unfold cell_occs. rewrite map_map. cbn [val_of fst snd].
  transitivity (map (fun fv => (fkey w (fverts t a c fv), c + co_of ts arrs j)) (map snd (combine (seq 0 (length (facets t))) (facets t)))); [|now rewrite map_map].
  rewrite map_snd_combine by apply seq_length. reflexivity.
Qed.

Lemma occs_in c i vs : In ((c, i), vs) all_occs <-> has_facet ts arrs c i vs.
Proof.
  unfold all_occs. rewrite in_concat. split.
  - intros (l & Hl & H). apply in_map_iff in Hl as (j & <- & Hj). unfold block_occs in H.
    destruct (nth_error ts j) as [t|] eqn:Et; [|destruct H]. destruct (nth_error arrs j) as [a|] eqn:Ea; [|destruct H].
    apply in_concat in H as (l & Hl & H). apply in_map_iff in Hl as (k & <- & Hk). apply in_seq in Hk. unfold cell_occs in H.
    apply in_map_iff in H as ((f, fv) & E & H). cbn [fst snd] in E. injection E as <- <- <-. apply in_combine_seq in H as (_ & H). rewrite Nat.sub_0_r in H.
    rewrite Nat.add_comm. apply (HasFacet ts arrs j t a k f fv Et Ea); [lia|exact H].
  - intro H. destruct H as [j t a k i fv Et Ea Hk Hf]. exists (block_occs j). split.
    + apply in_map. apply in_seq. apply nth_error_bound in Ea. lia.
    + unfold block_occs. rewrite Et, Ea. apply in_concat. exists (cell_occs t a (co_of ts arrs j) k). split; [apply in_map, in_seq; lia|].
      unfold cell_occs. apply in_map_iff. exists (i, fv). cbn [fst snd]. split; [rewrite Nat.add_comm; reflexivity|].
      apply in_combine_seq. split; [lia|]. now rewrite Nat.sub_0_r.
Qed.

Hypothesis Hlen : length ts = length arrs.

Lemma co_step j t a : nth_error ts j = Some t -> nth_error arrs j = Some a -> co_of ts arrs (S j) = co_of ts arrs j + block_cells t a.
Proof.
  intros Et Ea. unfold co_of, num_cells. rewrite !combine_firstn, <- !firstn_map.
  apply lsum_firstn_S. rewrite nth_error_map_some, (nth_combine _ _ _ _ _ Et Ea). reflexivity.
Qed.
Lemma co_all : co_of ts arrs (length arrs) = num_cells ts arrs.
Proof. unfold co_of. rewrite firstn_all. rewrite <- Hlen, firstn_all. reflexivity. Qed.
Lemma co_mono j j' : j <= j' -> j' <= length arrs -> co_of ts arrs j <= co_of ts arrs j'.
Proof.
  intros H. induction H as [|j' H IH]; intro K; [lia|]. destruct (blocks_at ts arrs Hlen j') as (t & a & Et & Ea); [lia|].
  rewrite (co_step j' t a Et Ea). lia.
Qed.
Lemma block_occ_in j o : In o (block_occs j) -> exists t a k f fv, nth_error ts j = Some t /\ nth_error arrs j = Some a /\ k < block_cells t a /\ nth_error (facets t) f = Some fv /\
  o = ((k + co_of ts arrs j, f), fverts t a k fv).
Proof.
  intro H. unfold block_occs in H.
  destruct (nth_error ts j) as [t|] eqn:Et; [|destruct H]. destruct (nth_error arrs j) as [a|] eqn:Ea; [|destruct H].
  apply in_concat in H as (l & Hl & H). apply in_map_iff in Hl as (k & <- & Hk). apply in_seq in Hk. unfold cell_occs in H.
  apply in_map_iff in H as ((f, fv) & E & H). cbn [fst snd] in E. apply in_combine_seq in H as (_ & H). rewrite Nat.sub_0_r in H.
  exists t, a, k, f, fv. repeat split; auto; lia.
Qed.
Lemma NoDup_concat_i {A B} (f : A -> list B) l : NoDup l -> (forall x, In x l -> NoDup (f x)) ->
  (forall x y z, In x l -> In y l -> In z (f x) -> In z (f y) -> x = y) -> NoDup (concat (map f l)).
Proof.
  induction 1 as [|x t Hx Ht IH]; intros Hf Hd; [constructor|]. cbn. apply NoDup_app_i.
  - apply Hf. now left.
  - apply IH; [intros y Hy; apply Hf; now right|]. intros y z u Hy Hz. apply Hd; now right.
  - intros u Hu Hc. apply in_concat in Hc as (l & Hl & Hc). apply in_map_iff in Hl as (y & <- & Hy). apply Hx.
    rewrite (Hd x y u); [exact Hy|now left|now right|exact Hu|exact Hc].
Qed.
Lemma occs_NoDup : NoDup (map fst all_occs).
Proof.
  unfold all_occs. rewrite concat_map, map_map. apply NoDup_concat_i; [apply seq_NoDup| |].
  - intros j Hj. unfold block_occs. destruct (nth_error ts j) as [t|]; [|constructor]. destruct (nth_error arrs j) as [a|]; [|constructor].
    rewrite concat_map, map_map. apply NoDup_concat_i; [apply seq_NoDup| |].
    + intros c _. unfold cell_occs. rewrite map_map. cbn [fst].
      rewrite <- (map_map fst (fun i => (c + co_of ts arrs j, i))), map_fst_combine by (rewrite seq_length; lia).
      apply NoDup_map_i; [|apply seq_NoDup]. intros x y _ _ E. now injection E.
    + intros c c' z _ _ H1 H2. unfold cell_occs in *. rewrite map_map in H1, H2. apply in_map_iff in H1 as (x & <- & _). apply in_map_iff in H2 as (y & E & _). cbn in E. injection E. lia.
  - intros j j' z Hj Hj' H1 H2. apply in_map_iff in H1 as (o & <- & H1). apply in_map_iff in H2 as (o' & E & H2).
    apply block_occ_in in H1 as (t & a & k & f & fv & Et & Ea & Hk & _ & ->). apply block_occ_in in H2 as (t' & a' & k' & f' & fv' & Et' & Ea' & Hk' & _ & ->).
    cbn [fst] in E. injection E as E _. apply in_seq in Hj, Hj'. pose proof (co_step j t a Et Ea) as S1. pose proof (co_step j' t' a' Et' Ea') as S2.
    destruct (Nat.lt_trichotomy j j') as [L|[L|L]]; [|exact L|].
    + pose proof (co_mono (S j) j' L ltac:(lia)). lia.
    + pose proof (co_mono (S j') j L ltac:(lia)). lia.
Qed.
Lemma occ_cell_lt c i vs : In ((c, i), vs) all_occs -> c < num_cells ts arrs.
Proof.
  intro H. unfold all_occs in H. apply in_concat in H as (l & Hl & H). apply in_map_iff in Hl as (j & <- & Hj). apply in_seq in Hj.
  apply block_occ_in in H as (t & a & k & f & fv & Et & Ea & Hk & _ & E). injection E as -> _ _.
  pose proof (co_step j t a Et Ea). pose proof (co_mono (S j) (length arrs) ltac:(lia) (le_n _)). rewrite co_all in *. lia.
Qed.
Lemma occs_length : length all_occs = num_facets ts arrs.
Proof.
  unfold all_occs, num_facets. rewrite <- lsum_concat_length, map_map. f_equal. apply nth_error_ext. intro j.
  destruct (Nat.lt_ge_cases j (length arrs)) as [H|H].
  - rewrite !nth_error_map_some, nth_error_seq by exact H. destruct (blocks_at ts arrs Hlen j H) as (t & a & Et & Ea).
    rewrite (nth_combine _ _ _ _ _ Et Ea). cbn [option_map plus fst snd]. f_equal. unfold block_occs. rewrite Et, Ea.
    assert (G : forall n b, length (concat (map (cell_occs t a (co_of ts arrs j)) (seq b n))) = n * length (facets t)); [|apply G].
    induction n as [|n IH]; intro b; [reflexivity|]. cbn [seq map concat]. rewrite app_length, IH. unfold cell_occs. rewrite map_length, combine_length, seq_length. lia.
  - transitivity (@None nat); [|symmetry]; apply nth_error_None; rewrite map_length, ?seq_length, ?combine_length; lia.
Qed.
End Occs.

(** ** Order of the facets *)
Lemma in_signed_vertex v : (-1 <= v < 2 ^ 63)%Z -> in_signed 64 v.
Proof. unfold in_signed. cbn. lia. Qed.

Section Order.
Variables (keys : list (list Z)) (w threads : nat) (tsort : list (list Z) -> list nat).
Hypothesis Hw : 0 < w.
Hypothesis Hk : Forall (fun k => length k = w /\ Forall (in_signed 64) k) keys.
Hypothesis Hn : (N.of_nat (length keys) < 2 ^ 64)%N.

Lemma cols_row i : i < length keys -> map (fun c => nth i c 0%Z) (map (fun k => map (fun row => nth k row 0%Z) keys) (seq 0 w)) = nth i keys [].
Proof.
  intro Hi. rewrite map_map. rewrite Forall_forall in Hk. destruct (Hk (nth i keys [])) as (L & _); [now apply nth_In|].
  apply nth_error_ext. intro k. rewrite nth_error_map_some. destruct (Nat.lt_ge_cases k w) as [H|H].
  - rewrite nth_error_seq by exact H. cbn [option_map plus]. rewrite (nth_indep _ 0%Z (nth k [] 0%Z)) by (rewrite map_length; exact Hi).
    rewrite (map_nth (fun row => nth k row 0%Z) keys [] i). symmetry. apply nth_error_nth'. lia.
  - transitivity (@None Z); [|symmetry; apply nth_error_None; lia]. replace (nth_error (seq 0 w) k) with (@None nat); [reflexivity|]. symmetry. apply nth_error_None. rewrite seq_length. exact H.
Qed.
Lemma order_in perm : Permutation (seq 0 (length keys)) perm -> forall i, In i perm -> i < length keys.
Proof. intros Hp i Hi. apply (Permutation_in _ (Permutation_sym Hp)), in_seq in Hi. lia. Qed.

Lemma facet_order_ok : sorts_facets tsort -> exists order, facet_order tsort threads w keys = Some order /\
  Permutation (seq 0 (length keys)) order /\ StronglySorted (fun i j => lex_le (nth i keys []) (nth j keys [])) order.
Proof.
  intro Hts. unfold facet_order. destruct (1 <? threads).
  - exists (tsort keys). split; [reflexivity|]. apply Hts.
  - destruct (sort_by_perm_cols_correct 64 16 (map (fun k => map (fun row => nth k row 0%Z) keys) (seq 0 w)) (length keys)) as (perm & Ep & Hp & Hs & _).
    + reflexivity. + reflexivity. + exact Hn. + destruct w; [lia|discriminate].
    + apply Forall_forall. intros c Hc. apply in_map_iff in Hc as (k & <- & Hkk). apply in_seq in Hkk. split; [apply map_length|].
      apply Forall_forall. intros z Hz. apply in_map_iff in Hz as (row & <- & Hrow). rewrite Forall_forall in Hk. destruct (Hk row Hrow) as [Lr Br].
      rewrite Forall_forall in Br. apply Br. apply nth_In. lia.
    + exists perm. split; [exact Ep|]. split; [exact Hp|]. pose proof (order_in perm Hp) as Hin.
      eapply SS_impl_in; [|exact Hs]. intros i j Hi Hj. cbv beta. rewrite !cols_row by (now apply Hin). auto.
Qed.
End Order.
