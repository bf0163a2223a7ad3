(** New global numbers of ghosts. *)
From Verif Require Import Base BaseProofs Algo AlgoProofs BucketProofs World WorldProofs IndexMap IndexMapProofs PostOfficeProofs RoundTrip ImSharedProofs GhostIdx GhostIdxSpec.
Open Scope nat_scope.

(** ** Maps *)
Lemma zfind_all {V} k (l : list (Z * V)) v : (exists v', In (k, v') l) -> (forall v', In (k, v') l -> v' = v) -> zfind k l = Some v.
Proof.
  induction l as [|(k', v') l IH]; intros (x & Hx) H; [destruct Hx|]. cbn [zfind]. destruct (Z.eqb_spec k' k) as [E|N].
  - subst k'. f_equal. apply H. now left.
  - apply IH; [|intros; apply H; now right]. destruct Hx as [Hx|Hx]; [congruence|eauto].
Qed.
Lemma zfind_in {V} k (l : list (Z * V)) v : zfind k l = Some v -> In (k, v) l.
Proof. induction l as [|(k', v') l IH]; cbn; [discriminate|]. destruct (Z.eqb_spec k' k) as [->|N]; [intros E; injection E as ->; now left|auto]. Qed.
Lemma zfind_none {V} k (l : list (Z * V)) : (forall v, ~ In (k, v) l) -> zfind k l = None.
Proof. intro H. destruct (zfind k l) as [v|] eqn:E; [|reflexivity]. exfalso. now apply (H v), zfind_in. Qed.
Lemma zlookup_find l k : StronglySorted (fun a b : Z * nat => (fst a < fst b)%Z) l -> zlookup l k = zfind k l.
Proof.
  unfold zlookup. induction 1 as [|(k', v) l Hs IH Hf]; [reflexivity|]. cbn [prefix_len zfind fst]. destruct (Z.ltb_spec k' k) as [L|G].
  - cbn [nth_error]. destruct (Z.eqb_spec k' k); [lia|]. exact IH.
  - cbn [nth_error]. destruct (Z.eqb_spec k' k) as [E|N]; [reflexivity|]. symmetry. apply zfind_none. intros v' H. rewrite Forall_forall in Hf. specialize (Hf _ H). cbn in Hf. lia.
Qed.
Lemma zpl_total a b : zpair_leb a b = true \/ zpair_leb b a = true.
Proof.
  unfold zpair_leb. rewrite !orb_true_iff, !andb_true_iff, !Z.ltb_lt, !Z.eqb_eq, !Nat.leb_le. destruct (Z.lt_trichotomy (fst a) (fst b)) as [H|[H|H]]; [auto| |auto].
  destruct (Nat.le_ge_cases (snd a) (snd b)); [left|right]; right; auto.
Qed.
Lemma zpl_trans a b c : zpair_leb a b = true -> zpair_leb b c = true -> zpair_leb a c = true.
Proof. unfold zpair_leb. rewrite !orb_true_iff, !andb_true_iff, !Z.ltb_lt, !Z.eqb_eq, !Nat.leb_le. lia. Qed.
Lemma zsorted l : NoDup (map fst l) -> StronglySorted (fun a b : Z * nat => (fst a < fst b)%Z) (isort zpair_leb l).
Proof.
  intro Hn. pose proof (isort_sorted _ zpair_leb zpl_total zpl_trans l) as H.
  assert (N : NoDup (map fst (isort zpair_leb l))) by (eapply Permutation_NoDup; [apply Permutation_map, isort_perm|exact Hn]).
  induction H as [|a t Hs IH Hf]; [constructor|]. cbn [map] in N. inversion N as [|? ? N1 N2]; subst. constructor; [now apply IH|].
  rewrite Forall_forall in *. intros b Hb. specialize (Hf b Hb). unfold zpair_leb in Hf. rewrite orb_true_iff, andb_true_iff, Z.ltb_lt, Z.eqb_eq in Hf.
  destruct Hf as [Hf|(E & _)]; [exact Hf|]. exfalso. apply N1. rewrite E. now apply in_map.
Qed.
Lemma combine_key (l : list Z) a : map fst (combine l (seq a (length l))) = l.
Proof. apply map_fst_combine. rewrite seq_length. lia. Qed.
Lemma in_combine_pos (l : list Z) a k v : In (k, v) (combine l (seq a (length l))) <-> exists i, nth_error l i = Some k /\ v = a + i.
Proof.
  rewrite combine_nth_in. split.
  - intros (i & H1 & H2). pose proof (nth_error_bound _ _ _ H1) as B. rewrite nth_error_seq in H2 by exact B. injection H2 as <-. eauto.
  - intros (i & H1 & ->). exists i. split; [exact H1|]. rewrite nth_error_seq by (eapply nth_error_bound; eauto). reflexivity.
Qed.
Lemma zfind_pos l a k i : NoDup l -> nth_error l i = Some k -> zfind k (combine l (seq a (length l))) = Some (a + i).
Proof.
  intros Hn H. apply zfind_all; [exists (a + i); apply in_combine_pos; eauto|]. intros v Hv. apply in_combine_pos in Hv as (j & Hj & ->). f_equal.
  rewrite NoDup_nth_error in Hn. apply Hn; [eapply nth_error_bound; eauto|congruence].
Qed.
Lemma zlookup_pos l a k i : NoDup l -> nth_error l i = Some k -> zlookup (isort zpair_leb (combine l (seq a (length l)))) k = Some (a + i).
Proof.
  intros Hn H. rewrite zlookup_find by (apply zsorted; now rewrite combine_key). apply zfind_all.
  - exists (a + i). eapply Permutation_in; [apply isort_perm|]. apply in_combine_pos. eauto.
  - intros v Hv. eapply Permutation_in in Hv; [|symmetry; apply isort_perm]. apply in_combine_pos in Hv as (j & Hj & ->). f_equal.
    rewrite NoDup_nth_error in Hn. apply Hn; [eapply nth_error_bound; eauto|congruence].
Qed.

(** ** Neighbours *)
Lemma count_vals {V} d (os : list nat) (gs : list V) : length os = length gs -> length (vals d (combine os gs)) = count_occ Nat.eq_dec os d.
Proof.
  revert gs. induction os as [|o os IH]; intros [|g gs] H; try discriminate; [reflexivity|]. cbn [combine count_occ].
  change ((o, g) :: combine os gs) with ([(o, g)] ++ combine os gs). rewrite vals_app, vals_one, app_length, IH by (cbn in H; lia). cbn [fst snd].
  destruct (Nat.eqb_spec o d); destruct (Nat.eq_dec o d); try congruence; reflexivity.
Qed.
Lemma neighbours_ok os q : ~ In q os -> exists nb, ofold (count_owner q) os ([], []) = Some (nb, map (count_occ Nat.eq_dec os) nb) /\ NoDup nb /\ forall d, In d nb <-> In d os.
Proof.
  intro Hq. destruct (ofold_prefix_ind (count_owner q) (fun p st => snd st = map (count_occ Nat.eq_dec p) (fst st) /\ NoDup (fst st) /\ forall d, In d (fst st) <-> In d p) os ([], [])) as ((nb & ct) & E & H1 & H2 & H3).
  - cbn. split; [reflexivity|]. split; [constructor|tauto].
  - intros p a rest (nb & ct) El (H1 & H2 & H3). cbn [fst snd] in *. unfold count_owner. destruct (Nat.eqb_spec a q) as [->|N]; [exfalso; apply Hq; rewrite El; apply in_or_app; right; now left|].
    assert (Hc : forall d, count_occ Nat.eq_dec (p ++ [a]) d = count_occ Nat.eq_dec p d + (if Nat.eq_dec a d then 1 else 0)).
    { intro d. rewrite count_occ_app. cbn. destruct (Nat.eq_dec a d); lia. }
    destruct (index_in a nb) as [k|] eqn:Ek.
    + apply index_in_some in Ek. pose proof (nth_error_bound _ _ _ Ek) as B. assert (Ec : nth_error ct k = Some (count_occ Nat.eq_dec p a)) by (now rewrite H1, nth_error_map_some, Ek).
      unfold incr, modify. rewrite Ec. cbn [obind]. destruct (upd_some ct k (S (count_occ Nat.eq_dec p a))) as (ct' & Eu); [rewrite H1, map_length; exact B|]. rewrite Eu. cbn [obind].
      eexists. split; [reflexivity|]. cbn [fst snd]. split; [|split; [exact H2|]].
      * apply nth_error_ext. intro j. rewrite nth_error_map_some. destruct (Nat.eq_dec j k) as [->|Nj].
        -- rewrite (upd_nth_eq _ _ _ _ Eu), Ek. cbn [option_map]. rewrite Hc. destruct (Nat.eq_dec a a); [|congruence]. f_equal. lia.
        -- rewrite (upd_nth_neq _ _ _ j _ Eu) by congruence; rewrite H1, nth_error_map_some. destruct (nth_error nb j) as [d|] eqn:Ed; [|reflexivity]. cbn [option_map]. rewrite Hc.
           destruct (Nat.eq_dec a d) as [->|]; [|f_equal; lia]. exfalso. apply Nj. rewrite NoDup_nth_error in H2. apply H2; [eapply nth_error_bound; eauto|congruence].
      * intro d. rewrite H3, in_app_iff. cbn. split; [auto|]. intros [H|[<-|[]]]; [exact H|]. apply H3. eapply nth_error_In; eauto.
    + assert (Na : ~ In a nb) by (intro H; destruct (index_in_in a nb H) as (k & Hk); congruence).
      eexists. split; [reflexivity|]. cbn [fst snd]. split; [|split].
      * rewrite map_app. cbn [map]. rewrite Hc. destruct (Nat.eq_dec a a); [|congruence]. rewrite (proj1 (count_occ_not_In Nat.eq_dec p a)) by (now rewrite <- H3). f_equal.
        rewrite H1. apply map_ext_in. intros d Hd. rewrite Hc. destruct (Nat.eq_dec a d) as [->|]; [contradiction|lia].
      * eapply Permutation_NoDup; [apply Permutation_cons_append|]. now constructor.
      * intro d. rewrite !in_app_iff, H3. tauto.
  - cbn [fst snd] in *. exists nb. rewrite E, H1. auto.
Qed.

Section World.
Variables (P : nat) (pcx : (nat -> list nat) -> nat -> list nat).
Variables (owned ghosts : nat -> list Z) (owners : nat -> list nat) (threads : nat -> nat).
Hypothesis Hpcx : nbx_oracle P pcx.
Hypothesis Hok : ghost_input_ok P owned ghosts owners.

Definition kv (q : nat) : list (nat * Z) := combine (owners q) (ghosts q).
Lemma len q : q < P -> length (owners q) = length (ghosts q). Proof. apply Hok. Qed.
Lemma kv_in q o g : q < P -> In (o, g) (kv q) -> o < P /\ o <> q /\ In g (owned o).
Proof. intros Hq H. apply combine_nth_in in H as (i & H1 & H2). destruct Hok as (_ & _ & H). eapply H; eauto. Qed.
Lemma owners_in q o : q < P -> In o (owners q) -> o < P /\ o <> q.
Proof.
  intros Hq H. apply In_nth_error in H as (i & Hi). pose proof (nth_error_bound _ _ _ Hi) as B. rewrite (len q Hq) in B. destruct (nth_error_lt (ghosts q) i B) as (g & Eg).
  destruct Hok as (_ & _ & K). destruct (K q i g o Hq Eg Hi) as (K1 & K2 & _). auto.
Qed.
Lemma nb_ok q : q < P -> neighbours_counts owners q = Some (neighbors owners q, map (fun d => length (vals d (kv q))) (neighbors owners q)) /\ NoDup (neighbors owners q) /\
  forall d, In d (neighbors owners q) <-> In d (owners q).
Proof.
  intro Hq. destruct (neighbours_ok (owners q) q) as (nb & E & H1 & H2); [intro H; now apply (owners_in q q Hq)|].
  unfold neighbors, neighbours_counts. rewrite E. split; [|auto]. do 2 f_equal. apply map_ext. intro d. symmetry. apply count_vals. now apply len.
Qed.
Lemma graph : graph_ok P (in_edges pcx owners) (neighbors owners).
Proof.
  apply (oracle_graph P pcx (neighbors owners)); [exact Hpcx| |].
  - intros q Hq. apply (nb_ok q Hq).
  - intros q d Hq H. apply (nb_ok q Hq) in H. exact (proj1 (owners_in q d Hq H)).
Qed.

Definition G (q d : nat) : list Z := vals d (kv q).
Lemma send_ok q : q < P -> gh_send ghosts owners q =
  Some (concat (map (G q) (neighbors owners q)), (map (fun d => length (G q d)) (neighbors owners q), psums (map (fun d => length (G q d)) (neighbors owners q)))).
Proof.
  intro Hq. unfold gh_send. destruct (nb_ok q Hq) as (-> & Hn & Hin). cbn [obind]. fold (G q). set (nb := neighbors owners q) in *.
  set (ki := fun o => match index_in o nb with Some k => k | None => 0 end).
  assert (Hki : forall o, In o (owners q) -> index_in o nb = Some (ki o) /\ nth_error nb (ki o) = Some o).
  { intros o H. unfold ki. apply Hin in H. destruct (index_in_in o nb H) as (k & Ek). rewrite Ek. split; [reflexivity|now apply index_in_some]. }
  set (kvs := map (fun og => (ki (fst og), snd og)) (kv q)).
  assert (Ek : omap (fun i => p <- nth_error (owners q) i ;; np <- index_in p nb ;; g <- nth_error (ghosts q) i ;; Some (np, g)) (seq 0 (length (owners q))) = Some kvs).
  { rewrite (omap_map _ (fun i => (ki (nth i (owners q) 0), nth i (ghosts q) 0%Z))).
    - f_equal. unfold kvs, kv. transitivity (map (fun og : nat * Z => (ki (fst og), snd og)) (map (fun i => (nth i (owners q) 0, nth i (ghosts q) 0%Z)) (seq 0 (length (owners q))))); [now rewrite map_map|]. f_equal.
      generalize (len q Hq). generalize (owners q), (ghosts q). clear. intros os. induction os as [|o os IH]; intros [|g gs] H; try discriminate; [reflexivity|]. cbn [length seq map combine nth]. f_equal.
      rewrite <- seq_shift, map_map. cbn [nth]. apply IH. cbn in H. lia.
    - intros i Hi. apply in_seq in Hi. assert (E1 : nth_error (owners q) i = Some (nth i (owners q) 0)) by (apply nth_error_nth'; lia). rewrite E1. cbn [obind].
      destruct (Hki _ (nth_error_In _ _ E1)) as (-> & _). cbn [obind]. assert (E2 : nth_error (ghosts q) i = Some (nth i (ghosts q) 0%Z)) by (apply nth_error_nth'; rewrite <- (len q Hq); lia). rewrite E2. reflexivity. }
  rewrite Ek. cbn [obind].
  assert (Hkv : forall og, In og (kv q) -> In (fst og) (owners q)) by (intros (o, g) H; now apply in_combine_l in H).
  assert (Hv : forall k d, nth_error nb k = Some d -> vals k kvs = G q d).
  { intros k d Hk. unfold kvs, G. revert Hkv. generalize (kv q). intro l. induction l as [|(o, g) l IH]; intro Hl; [reflexivity|]. cbn [map fst snd].
    change ((ki o, g) :: map (fun og => (ki (fst og), snd og)) l) with ([(ki o, g)] ++ map (fun og => (ki (fst og), snd og)) l). change ((o, g) :: l) with ([(o, g)] ++ l).
    rewrite !vals_app, IH by (intros; apply Hl; now right). f_equal. rewrite !vals_one. cbn [fst snd]. destruct (Hki o (Hl (o, g) (or_introl eq_refl))) as (_ & Ho).
    destruct (Nat.eqb_spec (ki o) k) as [E|N]; destruct (Nat.eqb_spec o d) as [E'|N']; try reflexivity; exfalso.
    - apply N'. rewrite E in Ho. congruence.
    - apply N. subst d. rewrite NoDup_nth_error in Hn. apply Hn; [eapply nth_error_bound; eauto|congruence]. }
  assert (Hf : Forall (fun kv => fst kv < length nb) kvs).
  { apply Forall_forall. intros x Hx. apply in_map_iff in Hx as (og & <- & Hx). cbn [fst]. destruct (Hki (fst og) (Hkv og Hx)) as (_ & Ho). eapply nth_error_bound; eauto. }
  assert (Em : map (fun k => vals k kvs) (seq 0 (length nb)) = map (G q) nb) by (apply map_seq_nth; exact Hv).
  assert (Es : map (fun k => length (vals k kvs)) (seq 0 (length nb)) = map (fun d => length (G q d)) nb) by (apply map_seq_nth; intros k d Hk; f_equal; now apply Hv).
  change (map (fun d => length (vals d (kv q))) nb) with (map (fun d => length (G q d)) nb).
  destruct (place_all (length nb) kvs (psums (map (fun d => length (G q d)) nb)) (repeat 0%Z (last (psums (map (fun d => length (G q d)) nb)) 0)) Hf) as (pos & E & _).
  - intros k Hk. unfold offk. rewrite Es. apply psums_nth. rewrite map_length. lia.
  - rewrite repeat_length, last_psums, <- (vals_map_seq_total (length nb) _ Hf), Em, <- lsum_concat_length, map_map. reflexivity.
  - rewrite E. cbn [obind]. now rewrite Em.
Qed.
Lemma recv_ok q : q < P -> gh_recv P pcx ghosts owners q = Some (concat (map (fun s => G s q) (in_edges pcx owners q)), map (fun s => length (G s q)) (in_edges pcx owners q)).
Proof. intro Hq. unfold gh_recv. apply exchange_spec; [exact graph|exact Hq|]. intros s Hs. apply (graph q Hq) in Hs as (Hs & _). now apply send_ok. Qed.

Definition new (q : nat) (g : Z) : nat := match zfind g (old_to_new owned q) with Some v => v | None => 0 end.
Lemma owned_NoDup q : q < P -> NoDup (owned q).
Proof. intro Hq. apply NoDup_nth_error. intros i j Hi E. destruct (nth_error_lt (owned q) i Hi) as (g & Eg). destruct Hok as (H & _ & _). apply (H q q i j g Hq Hq Eg). congruence. Qed.
Lemma new_pos q i g : q < P -> nth_error (owned q) i = Some g -> new q g = new_number owned q i /\ new_index owned threads q g = Some (new q g).
Proof.
  intros Hq H. unfold new, old_to_new, new_index. pose proof (owned_NoDup q Hq) as N. rewrite (zfind_pos _ _ _ _ N H). split; [reflexivity|].
  destruct (1 <? threads q); [apply zlookup_pos|apply zfind_pos]; auto.
Qed.
Lemma G_owned q d g : q < P -> In g (G q d) -> d < P /\ In g (owned d).
Proof. intros Hq H. apply vals_in in H. destruct (kv_in q d g Hq H) as (H1 & _ & H2). auto. Qed.
Lemma answer_ok s : s < P -> gh_answer P pcx owned ghosts owners threads s =
  Some (concat (map (fun d => map (new s) (G d s)) (in_edges pcx owners s)), (map (fun d => length (map (new s) (G d s))) (in_edges pcx owners s), psums (map (fun d => length (map (new s) (G d s))) (in_edges pcx owners s)))).
Proof.
  intro Hs. unfold gh_answer. rewrite (recv_ok s Hs). cbn [obind]. rewrite (omap_map _ (new s)).
  - cbn [obind]. rewrite concat_map, map_map.
    replace (map (fun d => length (map (new s) (G d s))) (in_edges pcx owners s)) with (map (fun d => length (G d s)) (in_edges pcx owners s)) by (apply map_ext; intro; now rewrite map_length). reflexivity.
  - intros g Hg. apply in_concat in Hg as (l & Hl & Hg). apply in_map_iff in Hl as (q & <- & Hq). apply (graph s Hs) in Hq as (Hq & _). apply G_owned in Hg as (_ & Hg); [|exact Hq].
    apply In_nth_error in Hg as (i & Hi). apply (new_pos s i g Hs Hi).
Qed.
Lemma combine_concat_map (f : nat -> Z -> nat) (b : nat -> list Z) l :
  combine (concat (map b l)) (concat (map (fun s => map (f s) (b s)) l)) = concat (map (fun s => map (fun g => (g, f s g)) (b s)) l).
Proof.
  induction l as [|s l IH]; [reflexivity|]. cbn [map concat]. rewrite <- IH. clear IH. induction (b s) as [|g t IH]; [reflexivity|]. cbn [map app combine]. now rewrite IH.
Qed.

Theorem ghost_indices_ok r : r < P -> exists l, compute_ghost_indices P pcx owned ghosts owners threads r = Some l /\ length l = length (ghosts r) /\
  forall i g o k, nth_error (ghosts r) i = Some g -> nth_error (owners r) i = Some o -> nth_error (owned o) k = Some g -> nth_error l i = Some (new_number owned o k).
Proof.
  intro Hr. unfold compute_ghost_indices. rewrite (send_ok r Hr), (answer_ok r Hr). cbn [obind].
  rewrite (neigh_alltoallv_spec P (neighbors owners) (in_edges pcx owners) _ _ (fun s d => map (new s) (G d s)) r (graph_ok_sym _ _ _ graph) Hr).
  - cbn [obind]. rewrite combine_concat_map. set (T := concat _).
    assert (F : forall i g o, nth_error (ghosts r) i = Some g -> nth_error (owners r) i = Some o -> zfind g T = Some (new o g)).
    { intros i g o Hg Ho. assert (Hk : In (o, g) (kv r)) by (apply combine_nth_in; eauto). apply zfind_all.
      - exists (new o g). unfold T. apply in_concat. exists (map (fun g => (g, new o g)) (G r o)). split; [apply (in_map (fun s => map (fun g => (g, new s g)) (G r s))); apply (nb_ok r Hr); eapply nth_error_In; eauto|].
        apply (in_map (fun g => (g, new o g))). now apply vals_in.
      - intros v Hv. unfold T in Hv. apply in_concat in Hv as (l & Hl & Hv). apply in_map_iff in Hl as (s & <- & Hs). apply in_map_iff in Hv as (g' & E & Hg'). injection E as -> <-.
        apply G_owned in Hg' as (Hs' & Hg'); [|exact Hr]. destruct (kv_in r o g Hr Hk) as (Ho' & _ & Hgo). apply In_nth_error in Hg' as (i1 & E1). apply In_nth_error in Hgo as (i2 & E2).
        destruct Hok as (U & _ & _). destruct (U s o i1 i2 g Hs' Ho' E1 E2) as (-> & _). reflexivity. }
    set (h := fun i => new (nth i (owners r) 0) (nth i (ghosts r) 0%Z)).
    exists (map h (seq 0 (length (ghosts r)))). split; [|split; [now rewrite map_length, seq_length|]].
    + assert (L : forall gs a, (forall i g, nth_error gs i = Some g -> zfind g T = Some (h (a + i))) -> omap (fun g => zfind g T) gs = Some (map h (seq a (length gs)))).
      { induction gs as [|g gs IH]; intros a H; [reflexivity|]. cbn [omap length seq map]. rewrite (H 0 g eq_refl), Nat.add_0_r. cbn [obind]. rewrite (IH (S a)); [reflexivity|].
        intros i g' E. rewrite (H (S i) g' E). do 2 f_equal. lia. }
      apply L. intros i g Hg. cbn [plus]. assert (Ho : nth_error (owners r) i = Some (nth i (owners r) 0)) by (apply nth_error_nth'; rewrite (len r Hr); eapply nth_error_bound; eauto).
      rewrite (F i g _ Hg Ho). unfold h. now rewrite (nth_error_nth _ _ 0%Z Hg).
    + intros i g o k Hg Ho Hk. pose proof (nth_error_bound _ _ _ Hg) as B. rewrite nth_error_map_some, nth_error_seq by exact B. cbn [option_map plus]. unfold h.
      rewrite (nth_error_nth _ _ 0 Ho), (nth_error_nth _ _ 0%Z Hg). f_equal. destruct Hok as (_ & _ & K). destruct (K r i g o Hr Hg Ho) as (Ho' & _). apply (new_pos o k g Ho' Hk).
  - intros s Hs. apply (nb_ok r Hr) in Hs. destruct (owners_in r s Hr Hs) as (Hs' & _). rewrite (answer_ok s Hs'). reflexivity.
  - rewrite (send_ok r Hr). cbn [obind]. f_equal. apply map_ext. intro s. now rewrite map_length.
Qed.
End World.

(** ** Local to global *)
Lemma max_bound l : forall i x, nth_error l i = Some x -> x < fold_right Nat.max 0 l + 1.
Proof. induction l as [|y l IH]; intros [|i] x H; try discriminate; cbn [nth_error] in H; cbn [fold_right]; [injection H as ->; lia|apply IH in H; lia]. Qed.
Theorem local_to_global_ok global local : length global = length local ->
  (forall i g, nth_error global i = Some g -> g <> (-1)%Z) ->
  (forall i j k g g', nth_error local i = Some k -> nth_error local j = Some k -> nth_error global i = Some g -> nth_error global j = Some g' -> g = g') ->
  exists l, compute_local_to_global global local = Some l /\
    (forall i k g, nth_error local i = Some k -> nth_error global i = Some g -> nth_error l k = Some g) /\
    (forall k, k < length l -> ~ In k local -> nth_error l k = Some (-1)%Z) /\
    length l = match local with [] => 0 | _ => fold_right Nat.max 0 local + 1 end.
Proof.
  intros Hl Hg Hf. unfold compute_local_to_global. rewrite Hl. destruct local as [|k0 local0].
  - cbn. exists []. split; [reflexivity|]. split; [intros [|i] k g H; discriminate|]. split; [cbn; lia|reflexivity].
  - cbn [length]. change (S (length local0) =? 0) with false. cbn [andb]. rewrite Nat.eqb_refl. cbn [negb]. set (local := k0 :: local0) in *. set (n := fold_right Nat.max 0 local + 1).
    assert (Hc : forall k g, In (k, g) (combine local global) -> exists i, nth_error local i = Some k /\ nth_error global i = Some g) by (intros k g H; now apply combine_nth_in).
    destruct (ofold_prefix_ind (fun l2g lg => x <- nth_error l2g (fst lg) ;; if (x =? -1)%Z then upd l2g (fst lg) (snd lg) else Some l2g)
      (fun p l => length l = n /\ (forall k g, In (k, g) p -> nth_error l k = Some g) /\ (forall k, k < n -> ~ In k (map fst p) -> nth_error l k = Some (-1)%Z)) (combine local global) (repeat (-1)%Z n)) as (l & E & H1 & H2 & H3).
    + split; [apply repeat_length|]. split; [intros k g []|]. intros k Hk _. now apply nth_error_repeat.
    + intros p (k, g) rest l El (H1 & H2 & H3). cbn [fst snd].
      destruct (Hc k g) as (i & Ei & Ei'); [rewrite El; apply in_or_app; right; now left|]. pose proof (max_bound local i k Ei) as B. fold n in B.
      destruct (nth_error_lt l k) as (x & Ex); [lia|]. rewrite Ex. cbn [obind]. destruct (Z.eqb_spec x (-1)) as [->|N].
      * assert (Nk : ~ In k (map fst p)).
        { intro H. apply in_map_iff in H as ((k', g') & E & H). cbn [fst] in E. subst k'. pose proof (H2 k g' H) as E'. rewrite Ex in E'. injection E' as E'. destruct (Hc k g') as (j & _ & Hj); [rewrite El; apply in_or_app; now left|]. apply (Hg j g' Hj). now symmetry. }
        destruct (upd_some l k g) as (l' & Eu); [lia|]. exists l'. split; [exact Eu|]. split; [now rewrite (upd_length _ _ _ _ Eu)|]. split.
        -- intros k' g' H. apply in_app_or in H as [H|[H|[]]].
           ++ rewrite (upd_nth_neq _ _ _ k' _ Eu); [now apply H2|]. intros <-. apply Nk. now apply (in_map fst) in H.
           ++ injection H as <- <-. exact (upd_nth_eq _ _ _ _ Eu).
        -- intros k' Hk' Nk'. rewrite map_app, in_app_iff in Nk'. cbn in Nk'. rewrite (upd_nth_neq _ _ _ k' _ Eu) by (intro; apply Nk'; auto). apply H3; tauto.
      * exists l. split; [reflexivity|]. split; [exact H1|]. split.
        -- intros k' g' H. apply in_app_or in H as [H|[H|[]]]; [now apply H2|]. injection H as <- <-.
           destruct (in_dec Nat.eq_dec k (map fst p)) as [Hk|Hk]; [|rewrite (H3 k B Hk) in Ex; congruence].
           apply in_map_iff in Hk as ((k', g') & E & H). cbn [fst] in E. subst k'. rewrite (H2 k g' H). f_equal. destruct (Hc k g') as (j & Ej & Ej'); [rewrite El; apply in_or_app; now left|]. exact (Hf j i k g' g Ej Ei Ej' Ei').
        -- intros k' Hk' Nk'. apply H3; [exact Hk'|]. intro H. apply Nk'. rewrite map_app. apply in_or_app. now left.
    + exists l. split; [exact E|]. split; [|split].
      * intros i k g Hi Hi'. apply H2. apply combine_nth_in. eauto.
      * intros k Hk Nk. apply H3; [lia|]. intro H. apply Nk. rewrite map_fst_combine in H by lia. exact H.
      * exact H1.
Qed.
Theorem local_to_global_throws global local : length global <> length local -> compute_local_to_global global local = None.
Proof.
  intro H. unfold compute_local_to_global. destruct (Nat.eqb_spec (length global) (length local)); [contradiction|]. destruct (Nat.eqb_spec (length global) 0); destruct (Nat.eqb_spec (length local) 0); cbn; try reflexivity. lia.
Qed.

(** ** Local to local *)
Lemma SSZ_range (l : list Z) : StronglySorted Z.lt l -> forall i x, nth_error l i = Some x -> forall j y, nth_error l (i + j) = Some y -> (x + Z.of_nat j <= y)%Z.
Proof.
  induction 1 as [|a l Hs IH Hf]; intros [|i] x Hx j y Hy; try discriminate.
  - cbn [nth_error plus] in *. injection Hx as <-. destruct j as [|j]; [cbn in Hy; injection Hy as <-; lia|]. cbn [nth_error] in Hy.
    destruct l as [|b l]; [now destruct j|]. specialize (IH 0 b eq_refl j y Hy). rewrite Forall_forall in Hf. specialize (Hf b (or_introl eq_refl)). lia.
  - cbn [nth_error plus] in *. eapply IH; eauto.
Qed.
Theorem local_to_local_ok l0 l1 : length l0 = length l1 -> NoDup l1 -> (forall x, In x l0 -> In x l1) ->
  exists l, compute_local_to_local l0 l1 = Some l /\ length l = length l0 /\ forall i x, nth_error l0 i = Some x -> exists k, nth_error l i = Some k /\ nth_error l1 k = Some x.
Proof.
  intros Hl Hn Hin. unfold compute_local_to_local. rewrite Hl, Nat.eqb_refl. cbn [negb]. set (c := combine l1 (seq 0 (length l1))). set (g2l := isort zpair_leb c).
  set (b := match g2l with [] => false | _ => _ end). 
  assert (Hlen : length g2l = length l1) by (unfold g2l; rewrite <- (Permutation_length (isort_perm _ zpair_leb c)); unfold c; rewrite combine_length, seq_length; lia).
  assert (Hs : StronglySorted (fun a b => (fst a < fst b)%Z) g2l) by (apply zsorted; unfold c; now rewrite combine_key).
  assert (Hmem : forall e, In e g2l -> nth_error l1 (snd e) = Some (fst e)).
  { intros (k, v) H. apply (Permutation_in _ (Permutation_sym (isort_perm _ zpair_leb c))) in H. apply in_combine_pos in H as (i & Hi & ->). exact Hi. }
  assert (Hid : b = true -> forall i e, nth_error g2l i = Some e -> fst e = Z.of_nat i).
  { intro Hb. assert (Hsz : StronglySorted Z.lt (map fst g2l)).
    { clear - Hs. induction Hs as [|a t Hs IH Hf]; [constructor|]. cbn [map]. constructor; [exact IH|]. rewrite Forall_forall in *. intros y Hy. apply in_map_iff in Hy as (e & <- & He). now apply Hf. }
    intros i e He. unfold b in Hb. clear b. pose proof (nth_error_bound _ _ _ He) as Bi. destruct g2l as [|e0 t] eqn:Eg; [discriminate|]. rewrite <- Eg in *. apply andb_true_iff in Hb as (B1 & B2). apply Z.eqb_eq in B1, B2.
    assert (E0 : nth_error (map fst g2l) 0 = Some 0%Z) by (rewrite Eg; cbn; now rewrite B1).
    assert (EL : nth_error (map fst g2l) (length g2l - 1) = Some (Z.of_nat (length g2l) - 1)%Z).
    { rewrite nth_error_map_some. assert (Ex : exists p x, g2l = p ++ [x]) by (destruct (exists_last (l := g2l)) as (p & x & Ex); [rewrite Eg; discriminate|eauto]). destruct Ex as (p & x & Ex).
      rewrite Ex in B2 |- *. rewrite last_last in B2. rewrite app_length in B2 |- *. cbn [length] in *. replace (length p + 1 - 1) with (length p) by lia. rewrite nth_error_app2, Nat.sub_diag by lia. cbn. now rewrite B2. }
    assert (Ei : nth_error (map fst g2l) i = Some (fst e)) by (now rewrite nth_error_map_some, He).
    pose proof (SSZ_range _ Hsz 0 0%Z E0 i (fst e) Ei). pose proof (SSZ_range _ Hsz i (fst e) Ei (length g2l - 1 - i) (Z.of_nat (length g2l) - 1)%Z) as K.
    replace (i + (length g2l - 1 - i)) with (length g2l - 1) in K by lia. specialize (K EL). lia. }
  set (f := fun x : Z => _).
  assert (Hf : forall x, In x l0 -> exists k, f x = Some k /\ nth_error l1 k = Some x).
  { intros x Hx. unfold f. destruct (b && (0 <=? x)%Z && (x <? Z.of_nat (length g2l))%Z) eqn:Eb.
    - apply andb_true_iff in Eb as (Eb & E2). apply andb_true_iff in Eb as (Eb & E1). apply Z.leb_le in E1. apply Z.ltb_lt in E2.
      destruct (nth_error_lt g2l (Z.to_nat x)) as (e & Ee); [lia|]. rewrite Ee. cbn [obind]. exists (snd e). split; [reflexivity|]. rewrite (Hmem e (nth_error_In _ _ Ee)), (Hid Eb _ _ Ee). f_equal. lia.
    - apply Hin in Hx. apply In_nth_error in Hx as (i & Hi). exists i. split; [|exact Hi]. unfold g2l, c. rewrite (zlookup_pos l1 0 x i Hn Hi). reflexivity. }
  rewrite (omap_map f (fun x => match f x with Some k => k | None => 0 end)).
  - eexists. split; [reflexivity|]. split; [now rewrite map_length|]. intros i x Hx. destruct (Hf x (nth_error_In _ _ Hx)) as (k & E & Hk). exists k. split; [|exact Hk]. rewrite nth_error_map_some, Hx. cbn [option_map]. now rewrite E.
  - intros x Hx. destruct (Hf x Hx) as (k & -> & _). reflexivity.
Qed.
