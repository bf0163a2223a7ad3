(** Both directions of all pairs of equal keys, and the links they give. *)
From Verif Require Import Base BaseProofs Algo AlgoProofs BucketProofs SortSpec DualGraph DualRows DualPairs.
Open Scope nat_scope.

Lemma both_in {A} (E : list (A * A)) p q : In (p, q) (concat (map (both (fun i => i)) E)) <-> In (p, q) E \/ In (q, p) E.
Proof.
  induction E as [|(a, b) E IH]; cbn; [tauto|]. rewrite IH. split.
  - intros [H|[H|H]]; [left; left; exact H|right; left; congruence|tauto].
  - intros [[H|H]|[H|H]]; [tauto|tauto|right; left; congruence|tauto].
Qed.
Lemma both_NoDup {A} (E : list (A * A)) : NoDup E -> (forall a b, In (a, b) E -> ~ In (b, a) E) -> NoDup (concat (map (both (fun i => i)) E)).
Proof.
  induction E as [|(a, b) E IH]; intros H N; [constructor|]. inversion H as [|? ? Hab HE]; subst. cbn.
  assert (N' : forall x y, In (x, y) E -> ~ In (y, x) E) by (intros x y K1 K2; apply (N x y); now right).
  assert (Nba : ~ In (b, a) E) by (intro K; apply (N a b); [now left|now right]).
  constructor; [|constructor; [|now apply IH]].
  - cbn. rewrite both_in. intros [K|[K|K]]; [|contradiction|contradiction].
    injection K as K1 K2. subst. eapply N; now left.
  - rewrite both_in. tauto.
Qed.
Lemma both_map {A B} (f : A -> B) E : concat (map (both (fun i => i)) (map (fun ab => (f (fst ab), f (snd ab))) E)) =
  map (fun ab => (f (fst ab), f (snd ab))) (concat (map (both (fun i => i)) E)).
Proof. induction E as [|(a, b) E IH]; cbn; [reflexivity|]. now rewrite IH. Qed.

(** ** All ordered pairs of different positions with equal keys *)
Lemma matched_pairs (keys : list (list Z)) order : Permutation (seq 0 (length keys)) order ->
  StronglySorted (fun i j => lex_le (nth i keys []) (nth j keys [])) order ->
  exists gs, group_by (length order) (same_row keys) order = Some gs /\ concat gs = order /\
    (forall g x, In g gs -> In x g -> g = filter (same_row keys x) order) /\
    NoDup (concat (map (both (fun i => i)) (concat (map all_pairs gs)))) /\
    forall p q, In (p, q) (concat (map (both (fun i => i)) (concat (map all_pairs gs)))) <->
      p <> q /\ p < length keys /\ q < length keys /\ nth_error keys p = nth_error keys q.
Proof.
  intros Hp Hs. assert (Hin : forall i, In i order <-> i < length keys).
  { intro i. split; intro H; [apply (Permutation_in _ (Permutation_sym Hp)), in_seq in H; lia|apply (Permutation_in _ Hp), in_seq; lia]. }
  assert (Hnd : NoDup order) by (eapply Permutation_NoDup; [exact Hp|apply seq_NoDup]).
  assert (Hsame : forall a b, a < length keys -> b < length keys -> (same_row keys a b = true <-> nth_error keys a = nth_error keys b)).
  { intros a b Ha Hb. unfold same_row. destruct (nth_error_lt keys a Ha) as (x & ->). destruct (nth_error_lt keys b Hb) as (y & ->).
    rewrite zrow_eqb_eq. split; [intros ->; reflexivity|intro E; now injection E]. }
  destruct (group_by_ok lex_le (fun i => nth i keys []) (same_row keys) lex_le_anti order (length order)) as (gs & E & Ec & Ep & Ef); [reflexivity| |exact Hs|].
  { intros a b Ha Hb. apply Hin in Ha, Hb. rewrite (Hsame a b Ha Hb). destruct (nth_error_lt keys a Ha) as (x & Ex). destruct (nth_error_lt keys b Hb) as (y & Ey).
    rewrite Ex, Ey, (nth_error_nth _ _ _ Ex), (nth_error_nth _ _ _ Ey). split; [intro F; now injection F|intros ->; reflexivity]. }
  exists gs. split; [exact E|]. split; [exact Ec|]. split; [exact Ef|]. rewrite Ep. split.
  - apply both_NoDup; [apply NoDup_filter, all_pairs_NoDup, Hnd|]. intros a b H1 H2. apply filter_In in H1 as (H1 & _). apply filter_In in H2 as (H2 & _).
    exact (all_pairs_asym order a b Hnd H1 H2).
  - intros p q. rewrite both_in, !filter_In. cbn [fst snd]. split.
    + intros [(H1 & H2)|(H1 & H2)]; pose proof (all_pairs_neq order _ _ Hnd H1) as N; apply all_pairs_members in H1 as (I1 & I2); apply Hin in I1, I2.
      * apply Hsame in H2; auto.
      * apply Hsame in H2; auto.
    + intros (N & L1 & L2 & K). destruct (all_pairs_total order p q Nat.eq_dec) as [H|H]; [now apply Hin|now apply Hin|exact N| |].
      * left. split; [exact H|]. now apply Hsame.
      * right. split; [exact H|]. apply Hsame; [exact L2|exact L1|now symmetry].
Qed.

(** ** Adjacency lists *)
Lemma place_full {V} n (kvs : list (nat * V)) d m : Forall (fun kv => fst kv < n) kvs -> m = length kvs ->
  exists pos, ofold place kvs (psums (map (fun k => length (vals k kvs)) (seq 0 n)), repeat d m) = Some (pos, concat (map (fun k => vals k kvs) (seq 0 n))).
Proof.
  intros H ->. destruct (place_all n kvs (psums (map (fun k => length (vals k kvs)) (seq 0 n))) (repeat d (length kvs)) H) as (pos & E & _).
  - intros k Hk. apply psums_offk. lia.
  - apply repeat_length.
  - eauto.
Qed.
Lemma vals_total {V} n (kvs : list (nat * V)) : Forall (fun kv => fst kv < n) kvs -> lsum (map (fun k => length (vals k kvs)) (seq 0 n)) = length kvs.
Proof. intro H. rewrite <- (vals_map_seq_total n kvs H), <- lsum_concat_length, map_map. reflexivity. Qed.
Lemma fill_links_ok n kvs : Forall (fun kv => fst kv < n) kvs ->
  fill_links n kvs = Some (psums (map (fun k => length (vals k kvs)) (seq 0 n)), concat (map (fun k => vals k kvs) (seq 0 n))).
Proof.
  intro H. unfold fill_links. rewrite count_keys_spec by (rewrite Forall_map; exact H). cbn [obind]. rewrite map_vals_counts, last_psums, (vals_total n kvs H).
  destruct (place_full n kvs 0 (length kvs) H eq_refl) as (pos & E). rewrite E. reflexivity.
Qed.
Lemma links_slice {V} n (kvs : list (nat * V)) c : c < n ->
  slice_at (concat (map (fun k => vals k kvs) (seq 0 n))) (psums (map (fun k => length (vals k kvs)) (seq 0 n))) c = Some (vals c kvs).
Proof.
  intro H. pose proof (slice_at_concat (map (fun k => vals k kvs) (seq 0 n)) c (vals c kvs)) as S. rewrite map_map in S. apply S.
  rewrite nth_error_map_some, nth_error_seq by exact H. reflexivity.
Qed.
