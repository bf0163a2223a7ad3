From Coq Require Import NArith.
From Verif Require Import Base BaseProofs BucketProofs Algo AlgoProofs TransProofs World WorldProofs IndexMap IndexMapSpec IndexMapProofs ImSharedProofs Orient OrientProofs Sort SortSpec SortProofs Entities EntitiesSpec NumberProofs LocalIndexing.
Open Scope nat_scope.

(** ** Sorted rows *)
Lemma row_ltb_iff a b : row_ltb a b = true <-> row_le a b /\ a <> b.
Proof.
  revert b. induction a as [|x a IH]; intros [|y b]; cbn [row_ltb row_le].
  - split; [discriminate|]. intros [_ H]. now destruct H.
  - split; [intros _; split; [exact I|discriminate]|reflexivity].
  - split; [discriminate|tauto].
  - rewrite orb_true_iff, andb_true_iff, Nat.ltb_lt, Nat.eqb_eq, IH. split.
    + intros [H|[-> [H N]]]; [split; [auto|intros E; injection E; lia]|]. split; [auto|]. intros E. injection E as E. contradiction.
    + intros [[H|[-> H]] N]; [auto|]. right. split; [reflexivity|]. split; [exact H|]. intros ->. now apply N.
Qed.

Lemma nth_error_concat_rows {A B} (f : A -> list B) l n j k d : (forall x, In x l -> length (f x) = n) -> j < length l -> k < n ->
  nth_error (concat (map f l)) (j * n + k) = nth_error (f (nth j l d)) k.
Proof.
  intros Hf. revert j. induction l as [|x t IH]; intros j Hj Hk; [cbn in Hj; lia|]. cbn [map concat]. pose proof (Hf x (or_introl eq_refl)) as Lx.
  destruct j as [|j]; cbn [nth].
  - rewrite nth_error_app1 by lia. reflexivity.
  - rewrite nth_error_app2 by lia. replace (S j * n + k - length (f x)) with (j * n + k) by lia. apply IH; [intros; apply Hf; now right|cbn in Hj; lia|exact Hk].
Qed.

(** [find_entity] on a list of rows that determine their numbers *)
Section Find.
Variables (nv : nat) (e2l : list erow).
Hypothesis Hlen : forall e i, In (e, i) e2l -> length e = nv.
Hypothesis Hfun : forall e i j, In (e, i) e2l -> In (e, j) e2l -> i = j.
Hypothesis Hsmall : forall e i, In (e, i) e2l -> Forall (fun v => (Z.of_nat v < 2 ^ 63)%Z) (i :: e).
Hypothesis Hn : (Z.of_nat (length e2l) < 2 ^ 63)%Z.
Hypothesis Hnv : 0 < nv.

Lemma key_in e : e < length e2l -> In (key_of e2l e, snd (nth e e2l ([], 0))) e2l.
Proof using Type. clear. intros H. unfold key_of. rewrite <- surjective_pairing. now apply nth_In. Qed.

Lemma flat_rows : let x := concat (map (fun ei => map Z.of_nat (fst ei ++ [snd ei])) e2l) in
  length x = length e2l * (nv + 1) /\ Forall (in_signed 64) x /\
  forall j, j < length e2l -> row x (nv + 1) nv j = map Z.of_nat (key_of e2l j).
Proof.
  intros x. assert (forall ei, In ei e2l -> length (map Z.of_nat (fst ei ++ [snd ei])) = nv + 1) as Hl.
  { intros [e i] H. rewrite map_length, app_length. cbn. rewrite (Hlen _ _ H). reflexivity. }
  split; [|split].
  - unfold x. clear - Hl. induction e2l as [|ei t IH]; [reflexivity|]. cbn [map concat length]. rewrite app_length, Hl by now left. rewrite IH by (intros; apply Hl; now right). lia.
  - apply Forall_forall. intros z Hz. apply in_concat in Hz as (l & Hl' & Hz). apply in_map_iff in Hl' as ([e i] & <- & Hei). apply in_map_iff in Hz as (v & <- & Hv).
    pose proof (Hsmall _ _ Hei) as F. rewrite Forall_forall in F. specialize (F v). cbn in Hv. assert (In v (i :: e)) as Hin by (apply in_app_or in Hv as [Hv|[<-|[]]]; [now right|now left]). specialize (F Hin). unfold in_signed. cbn in F |- *. lia.
  - intros j Hj. unfold row, x. apply nth_error_ext. intros k. destruct (Nat.lt_ge_cases k nv) as [Hk|Hk].
    + rewrite nth_error_map, nth_error_seq by exact Hk. cbn [option_map plus]. rewrite nth_error_map.
      assert (In (nth j e2l ([], 0)) e2l) as Hin by now apply nth_In. destruct (nth j e2l ([], 0)) as [e i] eqn:En. unfold key_of. rewrite En. cbn [fst].
      pose proof (Hlen _ _ Hin) as Le. rewrite (nth_error_nth' e 0) by lia. cbn [option_map]. f_equal.
      apply nth_error_nth. rewrite (nth_error_concat_rows _ _ (nv + 1) j k ([], 0)); [|exact Hl|exact Hj|lia]. rewrite En. cbn [fst snd]. rewrite map_app, nth_error_app1 by (rewrite map_length; lia).
      rewrite nth_error_map, (nth_error_nth' e 0) by lia. reflexivity.
    + rewrite !(proj2 (nth_error_None _ _)); [reflexivity| |].
      * rewrite map_length. unfold key_of. assert (In (nth j e2l ([], 0)) e2l) as Hin by now apply nth_In. destruct (nth j e2l ([], 0)) as [e i]. cbn [fst]. rewrite (Hlen _ _ Hin). lia.
      * rewrite map_length, seq_length. lia.
Qed.

Lemma uniq_keys_from p : forall a, StronglySorted (fun i j => row_le (key_of e2l i) (key_of e2l j)) (a :: p) ->
  let u := unique_from (fun a b => row_eqb (key_of e2l a) (key_of e2l b)) a p in
  StronglySorted (fun i j => row_le (key_of e2l i) (key_of e2l j)) u /\ (forall x, In x u -> x = a \/ In x p) /\
  (forall x, x = a \/ In x p -> exists y, In y u /\ key_of e2l y = key_of e2l x).
Proof using Type.
  clear. induction p as [|b p IH]; intros a Hs; cbn [unique_from].
  - split; [exact Hs|]. split; [intros x [<-|[]]; auto|]. intros x [->|[]]. exists a. split; [now left|reflexivity].
  - inversion Hs as [|? ? Hs1 Ha]; subst. destruct (row_eqb (key_of e2l a) (key_of e2l b)) eqn:E.
    + apply row_eqb_iff in E. destruct (IH a) as (H1 & H2 & H3).
      { inversion Hs1; subst. constructor; [assumption|]. inversion Ha; assumption. }
      split; [exact H1|]. split; [intros x Hx; destruct (H2 x Hx); auto; right; now right|].
      intros x [->|[<-|Hx]]; [apply H3; auto| |apply H3; auto]. destruct (H3 a (or_introl eq_refl)) as (y & Hy & Ey). exists y. split; [exact Hy|congruence].
    + destruct (IH b Hs1) as (H1 & H2 & H3). split; [|split].
      * constructor; [exact H1|]. apply Forall_forall. intros x Hx. rewrite Forall_forall in Ha. apply Ha. destruct (H2 x Hx) as [->|]; [now left|now right].
      * intros x [<-|Hx]; [auto|]. right. destruct (H2 x Hx) as [->|]; [now left|now right].
      * intros x [->|Hx]; [exists a; split; [now left|reflexivity]|]. destruct (H3 x) as (y & Hy & Ey); [destruct Hx as [<-|]; auto|]. exists y. split; [now right|exact Ey].
Qed.

Lemma sorted_entities_ok : exists perm, sorted_entities nv e2l = Some perm /\
  (forall e i, In (e, i) e2l -> find_entity e2l perm e = Some i) /\
  (forall e, (forall i, ~ In (e, i) e2l) -> find_entity e2l perm e = None).
Proof.
  unfold sorted_entities. destruct flat_rows as (L & F & R). set (x := concat _) in *.
  destruct (sort_by_perm_correct 64 16 x (nv + 1) nv (length e2l)) as (p & Ep & Hp & Hs & _); [reflexivity|reflexivity| |exact L|lia|lia|exact F|].
  { apply N2Z.inj_lt. rewrite nat_N_Z. cbn. cbn in Hn. lia. }
  rewrite Ep. cbn [obind]. eexists. split; [reflexivity|].
  assert (Hin : forall i, In i p <-> i < length e2l) by (intro i; rewrite <- Hp, in_seq; lia).
  assert (Hs' : StronglySorted (fun i j => row_le (key_of e2l i) (key_of e2l j)) p).
  { eapply SS_impl_in; [|exact Hs]. cbn. intros i j Hi Hj. rewrite !R by now apply Hin. clear. generalize (key_of e2l i) as a, (key_of e2l j) as b. induction a as [|u a IH]; intros [|v b]; cbn; try tauto.
    intros [H|[H1 H2]]; [left; lia|right]. split; [lia|auto]. }
  set (u := unique _ p).
  assert (Hu : StronglySorted (fun i j => row_le (key_of e2l i) (key_of e2l j)) u /\ (forall i, In i u -> In i p) /\ (forall i, In i p -> exists j, In j u /\ key_of e2l j = key_of e2l i)).
  { unfold u, unique. destruct p as [|a p']; [split; [constructor|]; split; [intros i []|intros i []]|]. destruct (uniq_keys_from p' a Hs') as (H1 & H2 & H3).
    split; [exact H1|]. split; [intros i Hi; destruct (H2 i Hi) as [->|]; [now left|now right]|]. intros i [<-|Hi]; apply H3; auto. }
  clearbody u. clear Hs Hs' Ep R F L x Hp. destruct Hu as (U1 & U2 & U3). split.
  - intros e i Hei. unfold find_entity. apply In_nth with (d := ([], 0)) in Hei as (k & Hk & Ek).
    destruct (U3 k (proj2 (Hin k) Hk)) as (j & Hj & Ej). assert (key_of e2l j = e) as Kj by (rewrite Ej; unfold key_of; now rewrite Ek).
    assert (exists y, nth_error u (prefix_len (fun e0 => row_ltb (key_of e2l e0) e) u) = Some y /\ key_of e2l y = e /\ In y u) as (y & Ey & Ky & Hy).
    { clear - U1 Hj Kj. induction U1 as [|z t Ht IH Hz]; [destruct Hj|]. cbn [prefix_len]. destruct (row_ltb (key_of e2l z) e) eqn:El.
      - apply row_ltb_iff in El as [_ N]. destruct Hj as [->|Hj]; [congruence|]. cbn [nth_error]. destruct (IH Hj) as (y & E1 & E2 & E3). exists y. split; [exact E1|]. split; [exact E2|now right].
      - cbn [nth_error]. exists z. split; [reflexivity|]. split; [|now left]. destruct Hj as [->|Hj]; [exact Kj|]. rewrite Forall_forall in Hz. specialize (Hz j Hj). rewrite Kj in Hz.
        destruct (list_eq_dec Nat.eq_dec (key_of e2l z) e) as [E|N]; [exact E|]. rewrite (proj2 (row_ltb_iff _ _) (conj Hz N)) in El. discriminate. }
    rewrite Ey. cbn [obind]. rewrite (proj2 (row_eqb_iff _ _) Ky). f_equal.
    apply (Hfun e); [|rewrite <- Ek; now apply nth_In]. rewrite <- Ky at 1. apply key_in. apply Hin, U2, Hy.
  - intros e Hno. unfold find_entity. destruct (nth_error u _) as [y|] eqn:Ey; [|reflexivity]. cbn [obind]. destruct (row_eqb (key_of e2l y) e) eqn:E; [|reflexivity].
    exfalso. apply row_eqb_iff in E. apply (Hno (snd (nth y e2l ([], 0)))). rewrite <- E. apply key_in. apply Hin, U2. now apply nth_error_In in Ey.
Qed.
End Find.

(** ** [create_adj_list] *)
Lemma SS_vals k D : StronglySorted pair_lt D -> StronglySorted lt (vals k D).
Proof.
  intros H. unfold vals. induction H as [|[a b] D HD IH Ha]; [constructor|]. cbn [filter fst]. destruct (Nat.eqb_spec a k) as [->|N]; [|exact IH]. cbn [map snd].
  constructor; [exact IH|]. apply Forall_forall. intros v Hv. apply vals_in in Hv. rewrite Forall_forall in Ha. specialize (Ha _ Hv). unfold pair_lt in Ha. cbn in Ha. lia.
Qed.
Lemma adj_list_ok data size : (forall p, In p data -> fst p < size) ->
  let a := create_adj_list (isort pair_leb data) size in
  forall i, i < size -> exists l, slice_at (fst a) (snd a) i = Some l /\ StronglySorted lt l /\ forall q, In q l <-> In (i, q) data.
Proof.
  intros Hd a i Hi. unfold a, create_adj_list. cbn [fst snd]. change (unique pair_eqb (isort pair_leb data)) with (sort_uniq_pairs data).
  set (D := sort_uniq_pairs data). pose proof (sort_uniq_pairs_sorted data) as HD. fold D in HD.
  assert (HDin : forall p, In p D <-> In p data) by (intro p; apply sort_uniq_pairs_in).
  assert (D = concat (map (fun k => pack k (vals k D)) (seq 0 size))) as ED.
  { transitivity (isort pair_leb D); [|].
    - symmetry. apply psort_unique; [|reflexivity]. eapply SS_impl_in; [|exact HD]. cbn. intros x y _ _ H. apply pair_leb_iff. unfold pair_lt in H. lia.
    - apply psort_unique.
      + apply groups_sorted; [apply SS_lt_seq|]. intros k. eapply SS_impl_in; [|apply SS_vals, HD]. cbn. intros; lia.
      + apply groups_perm; [apply seq_NoDup|]. intros p Hp. apply in_seq. apply HDin in Hp. specialize (Hd p Hp). lia. }
  assert (E1 : map snd D = concat (map (fun k => vals k D) (seq 0 size))) by (transitivity (map snd (concat (map (fun k => pack k (vals k D)) (seq 0 size)))); [now f_equal|apply (map_snd_groups (seq 0 size) (fun k => vals k D) (fun k => k))]).
  assert (E2 : group_offsets size 0 D = psums (map (fun k => length (vals k D)) (seq 0 size))) by (transitivity (group_offsets size 0 (concat (map (fun k => pack k (vals k D)) (seq 0 size)))); [now f_equal|apply group_offsets_groups]).
  rewrite E1, E2.
  exists (vals i D). split; [|split; [now apply SS_vals|intros q; rewrite vals_in; apply HDin]].
  rewrite <- (map_map (fun k => vals k D) (@length nat)). apply (slice_at_concat (map (fun k => vals k D) (seq 0 size)) i).
  rewrite nth_error_map, nth_error_seq by exact Hi. reflexivity.
Qed.

(** ** Runs *)
Lemma countb_zero {A} (p : A -> bool) l : countb p l = 0 <-> forall x, In x l -> p x = false.
Proof.
  induction l as [|y l IH]; cbn [countb]; [split; [intros _ x []|reflexivity]|]. split.
  - intros H x [<-|Hx]; [destruct (p y); [lia|reflexivity]|]. apply IH; [destruct (p y); lia|exact Hx].
  - intros H. rewrite (H y) by now left. cbn. apply IH. intros; apply H; now right.
Qed.
Lemma value_runs_ok fuel : forall l, length l <= fuel -> StronglySorted le l ->
  exists rn, value_runs fuel l = Some rn /\ StronglySorted lt (map fst rn) /\ forall x n, In (x, n) rn <-> In x l /\ n = countb (Nat.eqb x) l.
Proof.
  induction fuel as [|fuel IH]; intros l Hf Hs.
  - destruct l; [|cbn in Hf; lia]. exists []. split; [reflexivity|]. split; [constructor|]. cbn. tauto.
  - destruct l as [|x l']; [exists []; split; [reflexivity|]; split; [constructor|]; cbn; tauto|].
    cbn [value_runs]. set (l := x :: l') in *. set (n := prefix_len (Nat.eqb x) l).
    destruct (prefix_split (Nat.eqb x) l) as [H1 H2]. fold n in H1, H2.
    assert (Hn : 0 < n) by (unfold n, l; cbn [prefix_len]; rewrite Nat.eqb_refl; lia).
    assert (El : l = firstn n l ++ skipn n l) by (symmetry; apply firstn_skipn).
    assert (Hx : forall y, In y (firstn n l) -> y = x) by (intros y Hy; specialize (H1 y Hy); apply Nat.eqb_eq in H1; congruence).
    assert (Hss : StronglySorted le (skipn n l)).
    { rewrite El in Hs. clear -Hs. induction (firstn n l) as [|z t IHt]; [exact Hs|]. inversion Hs; subst. auto. }
    assert (Hgt : forall y, In y (skipn n l) -> x < y).
    { intros y Hy. destruct (skipn n l) as [|z t] eqn:Es; [destruct Hy|]. apply Nat.eqb_neq in H2.
      assert (x <= z) by (rewrite El in Hs; assert (In x (firstn n l)) as Hin by (destruct n; [lia|now left]); clear -Hs Hin; induction (firstn n l) as [|w t' IHt]; [destruct Hin|]; inversion Hs as [|? ? Ht Hw]; subst; destruct Hin as [->|Hin]; [rewrite Forall_forall in Hw; apply Hw, in_or_app; right; now left|auto]).
      inversion Hss as [|? ? _ Hz]; subst. rewrite Forall_forall in Hz. destruct Hy as [<-|Hy]; [lia|]. specialize (Hz y Hy). lia. }
    destruct (IH (skipn n l)) as (rn & E & S1 & S2); [rewrite skipn_length; lia|exact Hss|]. rewrite E. cbn [obind]. exists ((x, n) :: rn). split; [reflexivity|].
    assert (Cx : countb (Nat.eqb x) (skipn n l) = 0) by (apply countb_zero; intros y Hy; apply Nat.eqb_neq; specialize (Hgt y Hy); lia).
    assert (Cn : countb (Nat.eqb x) (firstn n l) = n).
    { rewrite countb_filter, filter_all by (intros y Hy; apply Nat.eqb_eq; symmetry; now apply Hx). rewrite firstn_length. pose proof (prefix_len_le (Nat.eqb x) l). fold n in H. lia. }
    split.
    + cbn [map fst]. constructor; [exact S1|]. apply Forall_forall. intros y Hy. apply in_map_iff in Hy as ([y' m] & <- & Hy). apply S2 in Hy as [Hy _]. cbn. now apply Hgt.
    + intros y m. cbn [In]. rewrite S2.
      assert (I1 : In y l <-> In y (firstn n l) \/ In y (skipn n l)) by (rewrite <- in_app_iff, <- El; reflexivity).
      assert (C1 : countb (Nat.eqb y) l = countb (Nat.eqb y) (firstn n l) + countb (Nat.eqb y) (skipn n l)) by (rewrite <- countb_app, <- El; reflexivity).
      rewrite I1, C1. clear I1 C1. split.
      * intros [Eq|[Hy Em]]; [injection Eq as <- <-; split; [left; destruct n; [lia|now left]|lia]|]. split; [auto|]. rewrite Em.
        assert (countb (Nat.eqb y) (firstn n l) = 0); [|lia]. apply countb_zero. intros z Hz. rewrite (Hx z Hz). apply Nat.eqb_neq. specialize (Hgt y Hy). lia.
      * intros [[Hy|Hy] Em].
        -- left. rewrite (Hx y Hy) in Em |- *. f_equal. lia.
        -- right. split; [exact Hy|]. rewrite Em. assert (countb (Nat.eqb y) (firstn n l) = 0); [|lia]. apply countb_zero. intros z Hz. rewrite (Hx z Hz). apply Nat.eqb_neq. specialize (Hgt y Hy). lia.
Qed.
Lemma countb_perm {A} (p : A -> bool) l l' : Permutation l l' -> countb p l = countb p l'.
Proof. induction 1; cbn [countb]; lia. Qed.

(** The ranks that have every one of the vertices: [p v q] says that [q] has vertex [v]. *)
Lemma all_sharers (p : nat -> nat -> bool) (vs : list nat) P : vs <> [] ->
  exists rn, value_runs (length (isort Nat.leb (concat (map (fun v => filter (p v) (seq 0 P)) vs)))) (isort Nat.leb (concat (map (fun v => filter (p v) (seq 0 P)) vs))) = Some rn /\
    map fst (filter (fun xn => snd xn =? length vs) rn) = filter (fun q => forallb (fun v => p v q) vs) (seq 0 P).
Proof.
  intros Hvs. set (c := concat _). destruct (value_runs_ok _ (isort Nat.leb c) (Nat.le_refl _) (nsort_sorted c)) as (rn & E & S1 & S2). exists rn. split; [exact E|].
  apply SS_lt_eq; [|apply SS_filter, SS_lt_seq|].
  - clear -S1. induction rn as [|[x n] rn IH]; [constructor|]. cbn [map fst] in S1. inversion S1 as [|? ? Hs Hx]; subst. cbn [filter snd]. destruct (n =? length vs); [|auto]. cbn [map fst]. constructor; [auto|].
    apply Forall_forall. intros y Hy. rewrite Forall_forall in Hx. apply Hx. apply in_map_iff in Hy as (z & <- & Hz). apply filter_In in Hz as [Hz _]. apply in_map_iff. eauto.
  - intros q. assert (Hcount : q < P -> countb (Nat.eqb q) (isort Nat.leb c) = countb (fun v => p v q) vs).
    { intros Hq. rewrite <- (countb_perm _ _ _ (isort_perm _ Nat.leb c)). unfold c. clear - Hq. induction vs as [|v vs IH]; [reflexivity|]. cbn [map concat countb]. rewrite countb_app, IH. f_equal.
      rewrite countb_filter, filter_filter. transitivity (length (if p v q then [q] else [])); [|destruct (p v q); reflexivity]. f_equal.
      transitivity (filter (fun x => (if p v q then true else false) && Nat.eqb q x) (seq 0 P)).
      - apply filter_ext. intros x. destruct (Nat.eqb_spec q x) as [->|N]; [destruct (p v x); reflexivity|]. now rewrite !andb_false_r.
      - destruct (p v q); cbn [andb]; [|apply filter_none; reflexivity]. rewrite filter_eq_NoDup by apply seq_NoDup. rewrite (proj2 (mem_iff _ _)); [reflexivity|]. apply in_seq. lia. }
    assert (Hfull : countb (fun v => p v q) vs = length vs <-> forallb (fun v => p v q) vs = true).
    { clear. assert (forall l : list nat, countb (fun v => p v q) l <= length l) as Hle by (induction l as [|w l IHl]; cbn [countb length]; [lia|destruct (p w q); lia]).
      induction vs as [|v vs IH]; [split; reflexivity|]. cbn [countb length forallb]. specialize (Hle vs). destruct (p v q); cbn [andb]; [rewrite <- IH; lia|]. split; [lia|discriminate]. }
    rewrite in_map_iff, filter_In, in_seq. split.
    + intros ([x n] & <- & H). apply filter_In in H as [H Hn]. apply S2 in H as [Hin ->]. cbn [fst snd] in *. apply Nat.eqb_eq in Hn.
      assert (x < P) as Hx. { rewrite isort_in in Hin. apply in_concat in Hin as (l & Hl & Hin). apply in_map_iff in Hl as (v & <- & _). apply filter_In in Hin as [Hin _]. apply in_seq in Hin. lia. }
      split; [lia|]. apply Hfull. rewrite <- Hcount by exact Hx. exact Hn.
    + intros [Hq Hall]. exists (q, length vs). split; [reflexivity|]. apply filter_In. cbn [snd]. rewrite Nat.eqb_refl. split; [|reflexivity]. apply S2.
      assert (countb (Nat.eqb q) (isort Nat.leb c) = length vs) as Hc by (rewrite Hcount by lia; now apply Hfull). split; [|congruence].
      destruct (in_dec Nat.eq_dec q (isort Nat.leb c)) as [Hin|N]; [exact Hin|]. exfalso. destruct vs; [contradiction|].
      rewrite (proj2 (countb_zero _ _)) in Hc; [cbn in Hc; lia|]. intros x Hx. apply Nat.eqb_neq. intros <-. contradiction.
Qed.

