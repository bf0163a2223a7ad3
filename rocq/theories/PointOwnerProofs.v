(** Proofs about the ownership of points (C68). *)
From Verif Require Import Base BaseProofs Algo AlgoProofs BucketProofs World WorldProofs IndexMap IndexMapProofs RoundTrip ScattererProofs TransProofs DualMatch
  PointOwner PointOwnerSpec.

(** ** Lists *)
Lemma combine_enum {A V} (z : A) (d : V) pts vs : length vs = length pts -> combine pts vs = map (fun i => (nth i pts z, nth i vs d)) (seq 0 (length pts)).
Proof.
  revert vs. induction pts as [|x pts IH]; intros [|v vs] E; try discriminate; [reflexivity|]. cbn [combine length seq map nth]. f_equal.
  rewrite <- seq_shift, map_map. cbn [nth]. apply IH. now injection E.
Qed.
Lemma map_nth_seq {A} (z : A) l : map (fun i => nth i l z) (seq 0 (length l)) = l.
Proof.
  induction l as [|x l IH]; [reflexivity|]. cbn [length seq map nth]. f_equal. rewrite <- seq_shift, map_map. exact IH.
Qed.
Lemma vals_in {V} k (l : list (nat * V)) v : In v (vals k l) <-> In (k, v) l.
Proof.
  unfold vals. rewrite in_map_iff. split.
  - intros ((k', v') & <- & H). apply filter_In in H as (H & E). cbn in E. apply Nat.eqb_eq in E. cbn. now subst.
  - intro H. exists (k, v). split; [reflexivity|]. apply filter_In. split; [exact H|]. cbn. apply Nat.eqb_refl.
Qed.

(** A loop that changes one entry per step: each entry sees its own values in order. *)
Lemma keyed_fold {S V} (g : list S -> nat * V -> option (list S)) (f : S -> V -> S) (ps : list (nat * V)) :
  (forall x i v s, nth_error x i = Some s -> g x (i, v) = upd x i (f s v)) ->
  forall x, (forall p, In p ps -> fst p < length x) ->
  exists y, ofold g ps x = Some y /\ length y = length x /\ forall i s, nth_error x i = Some s -> nth_error y i = Some (fold_left f (vals i ps) s).
Proof.
  intro Hg. induction ps as [|(k, v) ps IH]; intros x Hb; cbn [ofold].
  - exists x. split; [reflexivity|]. split; [reflexivity|]. intros i s H. exact H.
  - destruct (nth_error_lt x k) as (s & Hs); [exact (Hb (k, v) (or_introl eq_refl))|]. rewrite (Hg x k v s Hs).
    destruct (upd_some x k (f s v)) as (x' & Ex); [now apply nth_error_bound in Hs|]. rewrite Ex. cbn [obind]. pose proof (upd_length _ _ _ _ Ex) as Ln.
    destruct (IH x') as (y & Ey & Ly & Hy); [intros p Hp; rewrite Ln; apply Hb; now right|]. exists y. split; [exact Ey|]. split; [congruence|].
    intros i t Ht. change ((k, v) :: ps) with ([(k, v)] ++ ps). rewrite vals_app, vals_one. cbn [fst snd]. destruct (Nat.eqb_spec k i) as [E|N].
    + subst k. cbn [app fold_left]. rewrite Hs in Ht. injection Ht as <-. apply Hy. eapply upd_nth_eq; eauto.
    + cbn [app]. apply Hy. rewrite (upd_nth _ _ _ i _ Ex). apply Nat.eqb_neq in N. now rewrite N.
Qed.
Lemma upd_same {A} (l : list A) i a : nth_error l i = Some a -> upd l i a = Some l.
Proof.
  revert i. induction l as [|b l IH]; intros [|i] H; cbn in *; try discriminate; [now injection H as ->|]. rewrite (IH i H). reflexivity.
Qed.
Lemma slice_blocks {A B} (f : A -> list B) (L : list A) i a n : nth_error L i = Some a -> (forall a, In a L -> length (f a) = n a) ->
  slice_at (concat (map f L)) (psums (map n L)) i = Some (f a).
Proof.
  intros H Hn. rewrite (map_ext_in n (fun a => length (f a)) L) by (intros; symmetry; auto). rewrite <- (map_map f (@length B)). apply slice_at_concat. now rewrite nth_error_map_some, H.
Qed.

Lemma SS_split_lt (b : list nat) q t p : StronglySorted lt (b ++ q :: t) -> In p t -> q < p.
Proof.
  induction b as [|a b IH]; cbn [app]; intros S Hp; apply StronglySorted_inv in S as (S & F); [|now apply IH]. rewrite Forall_forall in F. now apply F.
Qed.

Section Ownership.
Variables (P : nat) (nbx : (nat -> list nat) -> nat -> list nat).
Variables (A : Type) (zero : A) (points : nat -> list A).
Variables (box_ranks candidates : nat -> A -> list nat) (dist2 : nat -> nat -> A -> Z) (tol max_val : Z).
Hypothesis Hnbx : nbx_oracle P nbx.
Hypothesis Hbox : forall r x, r < P -> In x (points r) -> NoDup (box_ranks r x) /\ forall q, In q (box_ranks r x) -> q < P.
Hypothesis Htol : (0 < tol <= max_val)%Z.

Notation out := (out_ranks A points box_ranks).
Notation inn := (in_ranks nbx A points box_ranks).
Notation pt r i := (nth i (points r) zero).
Definition idx (r p : nat) : list nat := filter (fun i => mem p (box_ranks r (pt r i))) (seq 0 (length (points r))).

Lemma pt_in r i : i < length (points r) -> In (pt r i) (points r).
Proof. apply nth_In. Qed.
Lemma out_in r p : In p (out r) <-> exists x, In x (points r) /\ In p (box_ranks r x).
Proof.
  unfold out_ranks. rewrite sort_uniq_in, in_concat. split.
  - intros (l & Hl & Hp). apply in_map_iff in Hl as (x & <- & Hx). eauto.
  - intros (x & Hx & Hp). exists (box_ranks r x). split; [now apply in_map|exact Hp].
Qed.
Lemma out_lt r p : r < P -> In p (out r) -> p < P.
Proof. intros Hr H. apply out_in in H as (x & Hx & Hp). exact (proj2 (Hbox r x Hr Hx) p Hp). Qed.
Lemma out_nodup r : NoDup (out r).
Proof. apply sort_uniq_NoDup. Qed.
Lemma inn_eq r : r < P -> inn r = filter (fun s => mem r (out s)) (seq 0 P).
Proof. intro Hr. apply oracle_sorted; [exact Hnbx|exact Hr|]. intros s _. apply out_nodup. Qed.
Lemma graph : graph_ok P inn out.
Proof.
  intros r Hr. split; [apply out_nodup|]. split; [rewrite inn_eq by exact Hr; apply NoDup_filter, seq_NoDup|]. split.
  - intro d. split.
    + intro H. pose proof (out_lt r d Hr H) as Hd. split; [exact Hd|]. rewrite inn_eq by exact Hd. apply filter_In. split; [apply in_seq; lia|now apply mem_iff].
    + intros (Hd & H). rewrite inn_eq in H by exact Hd. apply filter_In in H as (_ & H). now apply mem_iff in H.
  - intro s. rewrite inn_eq by exact Hr. rewrite filter_In, in_seq, mem_iff. intuition lia.
Qed.

(** ** Packing *)
Definition kv {V} (r : nat) (vs : list V) (d : V) : list (nat * V) :=
  concat (map (fun i => map (fun p => (match index_in p (out r) with Some k => k | None => 0 end, nth i vs d)) (box_ranks r (pt r i))) (seq 0 (length (points r)))).
Lemma kv_lt {V} r (vs : list V) d : r < P -> Forall (fun x => fst x < length (out r)) (kv r vs d).
Proof.
  intro Hr. rewrite Forall_forall. intros x H. apply in_concat in H as (l & Hl & H). apply in_map_iff in Hl as (i & <- & Hi). apply in_seq in Hi.
  apply in_map_iff in H as (p & <- & Hp). cbn [fst]. destruct (index_in_in p (out r)) as (k & Ek); [apply out_in; exists (pt r i); split; [apply pt_in; lia|exact Hp]|].
  rewrite Ek. apply index_in_some in Ek. now apply nth_error_bound in Ek.
Qed.
Lemma kv_vals {V} r (vs : list V) d k p : r < P -> nth_error (out r) k = Some p -> vals k (kv r vs d) = map (fun i => nth i vs d) (idx r p).
Proof.
  intros Hr Hk. unfold kv, idx. assert (G : forall l, (forall i, In i l -> i < length (points r)) ->
    vals k (concat (map (fun i => map (fun p => (match index_in p (out r) with Some k => k | None => 0 end, nth i vs d)) (box_ranks r (pt r i))) l))
    = map (fun i => nth i vs d) (filter (fun i => mem p (box_ranks r (pt r i))) l)).
  2:{ apply G. intros i Hi. apply in_seq in Hi. lia. }
  induction l as [|i l IH]; intro Hl; [reflexivity|]. cbn [map concat filter]. rewrite vals_app, IH by (intros; apply Hl; now right).
  assert (E : forall b, NoDup b -> (forall q, In q b -> In q (out r)) ->
     vals k (map (fun p => (match index_in p (out r) with Some k => k | None => 0 end, nth i vs d)) b) = if mem p b then [nth i vs d] else []).
  { clear - Hk. induction b as [|q b IH]; intros Hn Hb; [reflexivity|]. apply NoDup_cons_iff in Hn as (Hnq & Hn). cbn [map].
    change (?a :: ?l) with ([a] ++ l) at 1. rewrite vals_app, vals_one, IH; [|exact Hn|intros; apply Hb; now right]. cbn [fst snd].
    destruct (index_in_in q (out r) (Hb q (or_introl eq_refl))) as (j & Ej). rewrite Ej. apply index_in_some in Ej. unfold mem. cbn [existsb]. destruct (Nat.eqb_spec p q) as [Q|Q].
    - subst q. assert (J : j = k) by (apply (NoDup_nth_error_inj (out r) j k p); [apply sort_uniq_NoDup|exact Ej|exact Hk]). subst j. rewrite Nat.eqb_refl. cbn [orb].
      replace (existsb (Nat.eqb p) b) with false; [reflexivity|]. symmetry. apply not_true_iff_false. intro K. apply Hnq. now apply mem_iff.
    - cbn [orb]. destruct (Nat.eqb_spec j k) as [J|J]; [|reflexivity]. subst j. congruence. }
  pose proof (Hl i (or_introl eq_refl)) as Hi. rewrite E.
  - destruct (mem p (box_ranks r (pt r i))); reflexivity.
  - apply Hbox; [exact Hr|now apply pt_in].
  - intros q Hq. apply out_in. exists (pt r i). split; [now apply pt_in|exact Hq].
Qed.
Lemma packed_ok {V} (d : V) vs r : r < P -> length vs = length (points r) ->
  packed A points box_ranks d vs r = Some (concat (map (fun p => map (fun i => nth i vs d) (idx r p)) (out r)), map (fun p => length (idx r p)) (out r)).
Proof.
  intros Hr L. unfold packed. rewrite (combine_enum zero d _ _ L), omap_map
    with (g := fun xv => map (fun p => (match index_in p (out r) with Some k => k | None => 0 end, snd xv)) (box_ranks r (fst xv))).
  2:{ intros xv H. apply in_map_iff in H as (i & <- & Hi). apply in_seq in Hi. cbn [fst snd]. apply omap_map. intros p Hp.
      destruct (index_in_in p (out r)) as (k & Ek); [apply out_in; exists (pt r i); split; [apply pt_in; lia|exact Hp]|]. rewrite Ek. reflexivity. }
  cbn [obind]. rewrite map_map. cbn [fst snd]. fold (kv r vs d). pose proof (kv_lt r vs d Hr) as Hlt.
  rewrite count_keys_spec by (rewrite Forall_forall in *; intros k Hk; apply in_map_iff in Hk as (x & <- & Hx); auto). cbn [obind]. rewrite map_vals_counts.
  destruct (place_full (length (out r)) (kv r vs d) d (last (psums (map (fun k => length (vals k (kv r vs d))) (seq 0 (length (out r))))) 0) Hlt) as (pos & E).
  { rewrite last_psums. apply vals_total, Hlt. }
  rewrite E. cbn [obind]. f_equal. f_equal.
  - f_equal. apply map_seq_nth. intros k p Hk. now apply kv_vals.
  - apply map_seq_nth. intros k p Hk. rewrite (kv_vals r vs d k p Hr Hk). now rewrite map_length.
Qed.

(** ** Messages *)
Notation spts := (send_points A zero points box_ranks).
Lemma send_points_ok r : r < P -> spts r = Some ((concat (map (fun p => map (fun i => pt r i) (idx r p)) (out r)),
    (map (fun p => length (idx r p)) (out r), psums (map (fun p => length (idx r p)) (out r)))), concat (map (idx r) (out r))).
Proof.
  intro Hr. unfold send_points. rewrite packed_ok; [|exact Hr|rewrite combine_length, seq_length; lia]. cbn [obind]. rewrite !concat_map, !map_map.
  assert (E : forall p i, In i (idx r p) -> nth i (combine (points r) (seq 0 (length (points r)))) (zero, 0) = (pt r i, i)).
  { intros p i Hi. apply filter_In in Hi as (Hi & _). apply in_seq in Hi. rewrite combine_nth by (now rewrite seq_length). rewrite seq_nth by lia. reflexivity. }
  f_equal. f_equal; [f_equal|]; f_equal; apply map_ext; intro p; rewrite map_map.
  - apply map_ext_in. intros i Hi. now rewrite (E p i Hi).
  - rewrite <- (map_id (idx r p)) at 2. apply map_ext_in. intros i Hi. now rewrite (E p i Hi).
Qed.
Notation rpts := (received_points P nbx A zero points box_ranks).
Lemma received_ok r : r < P -> rpts r = Some (concat (map (fun q => map (fun i => pt q i) (idx q r)) (inn r)), map (fun q => length (idx q r)) (inn r)).
Proof.
  intro Hr. unfold received_points. rewrite (exchange_spec P inn out _ (fun q p => map (fun i => pt q i) (idx q p)) r graph Hr).
  - f_equal. f_equal. apply map_ext. intro q. apply map_length.
  - intros s Hs. apply graph in Hs as (Hs & _); [|exact Hr]. rewrite (send_points_ok s Hs). cbn [obind]. f_equal. f_equal.
    rewrite (map_ext (fun p => length (idx s p)) (fun d => length (map (fun i => pt s i) (idx s d)))) by (intro; now rewrite map_length). reflexivity.
Qed.
Lemma send_back_ok {V} (data : nat -> option (list V)) (F : nat -> nat -> nat -> V) r : r < P ->
  (forall s, s < P -> data s = Some (concat (map (fun q => map (F s q) (idx q s)) (inn s)))) ->
  send_back P nbx A zero points box_ranks data r = Some (concat (map (fun s => map (F s r) (idx r s)) (out r))).
Proof.
  intros Hr Hd. unfold send_back.
  apply (neigh_alltoallv_spec P out inn _ _ (fun s q => map (F s q) (idx q s)) r (graph_ok_sym _ _ _ graph) Hr).
  - intros s Hs. pose proof (out_lt r s Hr Hs) as Hs'. rewrite (Hd s Hs'). cbn [obind]. rewrite (received_ok s Hs'). cbn [obind].
    rewrite (map_ext (fun q => length (idx q s)) (fun d => length (map (F s d) (idx d s)))) by (intro; now rewrite map_length). reflexivity.
  - rewrite (send_points_ok r Hr). cbn [obind]. f_equal. apply map_ext. intro. now rewrite map_length.
Qed.
Lemma send_forward_ok {V} (data : nat -> option (list V)) (F : nat -> nat -> nat -> V) r : r < P ->
  (forall s, s < P -> data s = Some (concat (map (fun q => map (F s q) (idx s q)) (out s)))) ->
  send_forward P nbx A zero points box_ranks data r = Some (concat (map (fun s => map (F s r) (idx s r)) (inn r))).
Proof.
  intros Hr Hd. unfold send_forward.
  apply (neigh_alltoallv_spec P inn out _ _ (fun s q => map (F s q) (idx s q)) r graph Hr).
  - intros s Hs. apply graph in Hs as (Hs & _); [|exact Hr]. rewrite (Hd s Hs). cbn [obind]. rewrite (send_points_ok s Hs). cbn [obind].
    rewrite (map_ext (fun q => length (idx s q)) (fun d => length (map (F s d) (idx s d)))) by (intro; now rewrite map_length). reflexivity.
  - rewrite (received_ok r Hr). cbn [obind]. f_equal. apply map_ext. intro. now rewrite map_length.
Qed.

(** ** Blocks of the messages *)
Lemma combine_blocks {V W} r (f : nat -> nat -> V) (g : nat -> nat -> W) (L : list nat) :
  combine (concat (map (fun s => map (f s) (idx r s)) L)) (concat (map (fun s => map (g s) (idx r s)) L)) = concat (map (fun s => map (fun i => (f s i, g s i)) (idx r s)) L).
Proof. rewrite combine_concat by (intros; now rewrite !map_length). f_equal. apply map_ext. intro s. apply combine_map. Qed.
Lemma combine_blocks_in {V W} r (f : nat -> nat -> V) (g : nat -> nat -> W) (L : list nat) :
  combine (concat (map (fun s => map (f s) (idx s r)) L)) (concat (map (fun s => map (g s) (idx s r)) L)) = concat (map (fun s => map (fun i => (f s i, g s i)) (idx s r)) L).
Proof. rewrite combine_concat by (intros; now rewrite !map_length). f_equal. apply map_ext. intro s. apply combine_map. Qed.
Definition ranks_of (r : nat) (x : A) : list nat := filter (fun s => mem s (box_ranks r x)) (out r).
Lemma ranks_of_in r x q : In x (points r) -> (In q (ranks_of r x) <-> In q (box_ranks r x)).
Proof.
  intro Hx. unfold ranks_of. rewrite filter_In, mem_iff. split; [tauto|]. intro H. split; [|exact H]. apply out_in. eauto.
Qed.
Lemma ranks_of_sorted r x : StronglySorted lt (ranks_of r x).
Proof. apply SS_filter, sort_uniq_sorted. Qed.
Lemma idx_lt r s i : In i (idx r s) -> i < length (points r) /\ In s (box_ranks r (pt r i)).
Proof. intro H. apply filter_In in H as (H & E). apply in_seq in H. apply mem_iff in E. split; [lia|exact E]. Qed.
Lemma vals_seq {V} (h : nat -> V) (p : nat -> bool) i l : NoDup l -> In i l -> vals i (map (fun j => (j, h j)) (filter p l)) = if p i then [h i] else [].
Proof.
  intros Hn Hi. induction l as [|j l IH]; [contradiction|]. apply NoDup_cons_iff in Hn as (Hj & Hn).
  assert (G : forall l, ~ In j l -> vals j (map (fun j => (j, h j)) (filter p l)) = []).
  { clear. intros l H. induction l as [|k l IH]; [reflexivity|]. cbn [filter]. destruct (p k); [|apply IH; intro K; apply H; now right]. cbn [map].
    change ((k, h k) :: ?t) with ([(k, h k)] ++ t). rewrite vals_app, vals_one. cbn [fst snd]. destruct (Nat.eqb_spec k j) as [E|N]; [destruct H; now left|]. apply IH. intro K. apply H. now right. }
  cbn [filter]. destruct (Nat.eq_dec i j) as [E|N].
  - subst j. destruct (p i); [|now apply G]. cbn [map]. change ((i, h i) :: ?t) with ([(i, h i)] ++ t). rewrite vals_app, vals_one, G by exact Hj. cbn [fst snd]. now rewrite Nat.eqb_refl.
  - destruct Hi as [Hi|Hi]; [congruence|]. destruct (p j); [|now apply IH]. cbn [map]. change ((j, h j) :: ?t) with ([(j, h j)] ++ t). rewrite vals_app, vals_one. cbn [fst snd].
    destruct (Nat.eqb_spec j i) as [E|_]; [congruence|]. now apply IH.
Qed.
Lemma vals_blocks {V} r (h : nat -> nat -> V) i : i < length (points r) ->
  vals i (concat (map (fun s => map (fun j => (j, h s j)) (idx r s)) (out r))) = map (fun s => h s i) (ranks_of r (pt r i)).
Proof.
  intro Hi. unfold ranks_of. induction (out r) as [|s l IH]; [reflexivity|]. cbn [map concat filter]. rewrite vals_app, IH. unfold idx.
  rewrite (vals_seq (h s)); [|apply seq_NoDup|apply in_seq; lia]. cbv beta. destruct (mem s (box_ranks r (pt r i))); reflexivity.
Qed.
Lemma by_point {V} (f : A -> V) r l : length l = length (points r) -> (forall i, i < length (points r) -> nth_error l i = Some (f (pt r i))) -> l = map f (points r).
Proof.
  intros E H. apply nth_error_ext. intro i. rewrite nth_error_map_some. destruct (Nat.lt_ge_cases i (length (points r))) as [L|L].
  - rewrite (H i L), (nth_error_nth' (points r) zero L). reflexivity.
  - rewrite (proj2 (nth_error_None (points r) i) L). apply nth_error_None. now rewrite E.
Qed.
Lemma nth_pt {V} (f : A -> V) r i d : i < length (points r) -> nth i (map f (points r)) d = f (pt r i).
Proof. intro H. rewrite (nth_indep _ d (f zero)) by (now rewrite map_length). apply map_nth. Qed.
Lemma nth_error_pt {V} (f : A -> V) r i : i < length (points r) -> nth_error (map f (points r)) i = Some (f (pt r i)).
Proof. intro H. rewrite nth_error_map_some, (nth_error_nth' (points r) zero H). reflexivity. Qed.

(** ** The ranks whose cells contain a point *)
Notation fcc := (first_colliding_cell A candidates dist2 tol).
Definition ind (s : nat) (x : A) : option nat := match fcc s x with Some _ => Some s | None => None end.
Lemma cell_indicator_ok s : s < P -> cell_indicator P nbx A zero points box_ranks candidates dist2 tol s = Some (concat (map (fun q => map (fun i => ind s (pt q i)) (idx q s)) (inn s))).
Proof. intro Hs. unfold cell_indicator. rewrite (received_ok s Hs). cbn [obind]. rewrite concat_map, map_map. f_equal. f_equal. apply map_ext. intro q. now rewrite map_map. Qed.
Definition fo (r : nat) (x : A) : option nat := find (fun s => match fcc s x with Some _ => true | None => false end) (ranks_of r x).
Notation fowners := (first_owners P nbx A zero points box_ranks candidates dist2 tol).
Lemma first_owners_ok r : r < P -> fowners r = Some (map (fo r) (points r)).
Proof.
  intro Hr. unfold first_owners. rewrite (send_points_ok r Hr). cbn [obind]. rewrite (send_back_ok _ (fun s q i => ind s (pt q i)) r Hr cell_indicator_ok). cbn [obind].
  rewrite (map_ext (idx r) (fun s => map (fun i => i) (idx r s))) by (intro; now rewrite map_id).
  rewrite (combine_blocks r (fun _ i => i) (fun s i => ind s (pt r i))).
  pose (f := fun (s v : option nat) => match v, s with Some q, None => Some q | _, _ => s end).
  destruct (keyed_fold set_owner f (concat (map (fun s => map (fun i => (i, ind s (pt r i))) (idx r s)) (out r)))) with (x := repeat (@None nat) (length (points r))) as (y & Ey & Ly & Hy).
  - intros x i v s Hs. unfold set_owner, f. cbn [fst snd]. rewrite Hs. cbn [obind]. destruct v as [q|]; [destruct s as [q'|]|]; try reflexivity; symmetry; now apply upd_same.
  - intros p Hp. rewrite repeat_length. apply in_concat in Hp as (l & Hl & Hp). apply in_map_iff in Hl as (s & <- & _). apply in_map_iff in Hp as (i & <- & Hi). now apply idx_lt in Hi.
  - rewrite Ey. f_equal. rewrite repeat_length in Ly. apply by_point; [exact Ly|]. intros i Hi. rewrite (Hy i None) by (now apply nth_error_repeat). f_equal.
    rewrite (vals_blocks r (fun s i => ind s (pt r i)) i Hi). unfold fo. generalize (pt r i). intro x. induction (ranks_of r x) as [|s l IH]; [reflexivity|].
    cbn [map fold_left find]. unfold ind at 2. destruct (fcc s x) as [c|]; [|exact IH].
    clear. cbn [f]. induction l as [|t l IH]; [reflexivity|]. cbn [map fold_left]. unfold f at 2. destruct (ind t x); exact IH.
Qed.
Definition none_b {V} (o : option V) : bool := match o with None => true | Some _ => false end.
Lemma extrapolate_ok s : s < P -> extrapolate P nbx A zero points box_ranks candidates dist2 tol s = Some (concat (map (fun q => map (fun i => none_b (fo s (pt s i))) (idx s q)) (out s))).
Proof.
  intro Hs. unfold extrapolate. rewrite (send_points_ok s Hs). cbn [obind]. rewrite (first_owners_ok s Hs). cbn [obind].
  rewrite omap_map with (g := fun i => none_b (fo s (pt s i))).
  - rewrite concat_map, map_map. reflexivity.
  - intros i Hi. apply in_concat in Hi as (l & Hl & Hi). apply in_map_iff in Hl as (q & <- & _). apply idx_lt in Hi as (Hi & _). rewrite (nth_error_pt (fo s) s i Hi). reflexivity.
Qed.
Notation clo := (closest A candidates dist2 max_val).
(** The cell and the distance rank [s] gives for the point [x] of [q]. *)
Definition ec (q s : nat) (x : A) : option nat * Z := if none_b (fo q x) then (snd (clo s x), fst (clo s x)) else (fcc s x, (-1)%Z).
Lemma extrapolated_ok s : s < P -> extrapolated P nbx A zero points box_ranks candidates dist2 tol max_val s = Some (concat (map (fun q => map (fun i => ec q s (pt q i)) (idx q s)) (inn s))).
Proof.
  intro Hs. unfold extrapolated. rewrite (received_ok s Hs). cbn [obind]. rewrite (send_forward_ok _ (fun q t i => none_b (fo q (pt q i))) s Hs extrapolate_ok). cbn [obind].
  rewrite (combine_blocks_in s (fun q i => pt q i) (fun q i => none_b (fo q (pt q i)))).
  rewrite omap_map with (g := fun xf => if snd xf : bool then (snd (clo s (fst xf)), fst (clo s (fst xf))) else (fcc s (fst xf), (-1)%Z)).
  - rewrite concat_map, map_map. f_equal. f_equal. apply map_ext. intro q. rewrite map_map. reflexivity.
  - intros xf H. apply in_concat in H as (l & Hl & H). apply in_map_iff in Hl as (q & <- & _). apply in_map_iff in H as (i & <- & Hi). cbn [fst snd]. apply idx_lt in Hi as (Hi & Hb).
    destruct (fo q (pt q i)) as [t|] eqn:E; cbn [none_b]; [reflexivity|]. pose proof (find_none _ _ E s) as N. cbv beta in N.
    destruct (fcc s (pt q i)); [assert (true = false) by (apply N, ranks_of_in; [now apply pt_in|exact Hb]); discriminate|]. now destruct (clo s (pt q i)).
Qed.

(** ** The owner of a point *)
Definition better (st : option nat * Z) (v : nat * Z) : option nat * Z := if ((0 <? snd v) && (snd v <? snd st))%Z then (Some (fst v), snd v) else st.
Definition own (r : nat) (x : A) : option nat := fst (fold_left better (map (fun s => (s, snd (ec r s x))) (ranks_of r x)) (fo r x, max_val)).
Notation powners := (point_owners P nbx A zero points box_ranks candidates dist2 tol max_val).
Lemma point_owners_ok r : r < P -> powners r = Some (map (own r) (points r)).
Proof.
  intro Hr. unfold point_owners. rewrite (send_points_ok r Hr). cbn [obind]. rewrite (first_owners_ok r Hr). cbn [obind].
  rewrite (send_back_ok _ (fun s q i => snd (ec q s (pt q i))) r Hr).
  2:{ intros s Hs. rewrite (extrapolated_ok s Hs). cbn [obind]. rewrite concat_map, map_map. f_equal. f_equal. apply map_ext. intro q. now rewrite map_map. }
  cbn [obind].
  pose (g := fun (st : list (option nat * Z)) (p : nat * (nat * Z)) => update_owner (fst (snd p)) st (fst p, snd (snd p))).
  assert (E : forall st0, ofold (fun (st : list (option nat * Z)) i =>
      rank <- nth_error (out r) i ;;
      us <- slice_at (concat (map (idx r) (out r))) (psums (map (fun p => length (idx r p)) (out r))) i ;;
      ds <- slice_at (concat (map (fun s => map (fun i => snd (ec r s (pt r i))) (idx r s)) (out r))) (psums (map (fun p => length (idx r p)) (out r))) i ;;
      ofold (update_owner rank) (combine us ds) st) (seq 0 (length (out r))) st0
    = ofold g (concat (map (fun s => map (fun i => (i, (s, snd (ec r s (pt r i))))) (idx r s)) (out r))) st0).
  { intro st0. rewrite <- (map_seq_nth (fun k => map (fun i => (i, (nth k (out r) 0, snd (ec r (nth k (out r) 0) (pt r i))))) (idx r (nth k (out r) 0)))
        (fun s => map (fun i => (i, (s, snd (ec r s (pt r i))))) (idx r s)) (out r)) by (intros k s Hk; now rewrite (nth_error_nth _ _ 0 Hk)).
    rewrite <- (ofold_nested g (fun k => Some (map (fun i => (i, (nth k (out r) 0, snd (ec r (nth k (out r) 0) (pt r i))))) (idx r (nth k (out r) 0))))) by reflexivity.
    apply ofold_ext. intros st k Hk. apply in_seq in Hk. destruct (nth_error_lt (out r) k) as (s & Es); [lia|]. rewrite (nth_error_nth _ _ 0 Es), Es. cbn [obind].
    rewrite (slice_blocks (idx r) (out r) k s _ Es) by reflexivity. cbn [obind].
    rewrite (slice_blocks (fun s => map (fun i => snd (ec r s (pt r i))) (idx r s)) (out r) k s _ Es) by (intros; now rewrite map_length). cbn [obind].
    rewrite <- (map_id (idx r s)) at 1. rewrite combine_map. rewrite !ofold_map. reflexivity. }
  rewrite E. clear E.
  destruct (keyed_fold g better (concat (map (fun s => map (fun i => (i, (s, snd (ec r s (pt r i))))) (idx r s)) (out r)))) with (x := map (fun o : option nat => (o, max_val)) (map (fo r) (points r))) as (y & Ey & Ly & Hy).
  - intros x i v s Hs. unfold g, update_owner, better. cbn [fst snd]. rewrite Hs. cbn [obind]. destruct ((0 <? snd v) && (snd v <? snd s))%Z; [reflexivity|]. symmetry. now apply upd_same.
  - intros p Hp. rewrite !map_length. apply in_concat in Hp as (l & Hl & Hp). apply in_map_iff in Hl as (s & <- & _). apply in_map_iff in Hp as (i & <- & Hi). now apply idx_lt in Hi.
  - rewrite Ey. cbn [obind]. f_equal. rewrite !map_length in Ly. apply by_point; [now rewrite map_length|]. intros i Hi. rewrite nth_error_map_some.
    rewrite (Hy i (fo r (pt r i), max_val)) by (rewrite map_map; now rewrite (nth_error_pt (fun x => (fo r x, max_val)) r i Hi)). cbn [option_map]. unfold own. f_equal. f_equal. f_equal.
    now apply (vals_blocks r (fun s i => (s, snd (ec r s (pt r i)))) i).
Qed.

Lemma first_min {T} (v : T -> Z) m l :
  let res := fold_left (fun best c => if (v c <? fst best)%Z then (v c, Some c) else best) l (m, None) in
  (res = (m, None) /\ forall c, In c l -> (m <= v c)%Z) \/
  exists before c after, l = before ++ c :: after /\ res = (v c, Some c) /\ (v c < m)%Z /\ (forall b, In b before -> (v c < v b)%Z) /\ forall b, In b l -> (v c <= v b)%Z.
Proof.
  induction l as [|a l IH] using rev_ind; cbn zeta in *; [left; split; [reflexivity|intros ? []]|]. rewrite fold_left_app. cbn [fold_left].
  destruct IH as [(E & H)|(b & c & t & E & Er & Hm & Hb & Hl)].
  - rewrite E. cbn [fst]. destruct (Z.ltb_spec (v a) m) as [L|L].
    + right. exists l, a, []. split; [reflexivity|]. split; [reflexivity|]. split; [exact L|]. split.
      * intros y Hy. specialize (H y Hy). lia.
      * intros y Hy. apply in_app_or in Hy as [Hy|[<-|[]]]; [specialize (H y Hy); lia|lia].
    + left. split; [reflexivity|]. intros y Hy. apply in_app_or in Hy as [Hy|[<-|[]]]; [now apply H|exact L].
  - rewrite Er. cbn [fst]. destruct (Z.ltb_spec (v a) (v c)) as [L|L]; right.
    + exists l, a, []. split; [reflexivity|]. split; [reflexivity|]. split; [lia|]. split.
      * intros y Hy. specialize (Hl y Hy). lia.
      * intros y Hy. apply in_app_or in Hy as [Hy|[<-|[]]]; [specialize (Hl y Hy); lia|lia].
    + exists b, c, (t ++ [a]). split; [rewrite E, <- app_assoc; reflexivity|]. split; [reflexivity|]. split; [exact Hm|]. split; [exact Hb|].
      intros y Hy. apply in_app_or in Hy as [Hy|[<-|[]]]; [now apply Hl|exact L].
Qed.
Lemma find_first {T} (p : T -> bool) l c : find p l = Some c -> exists before after, l = before ++ c :: after /\ p c = true /\ forall b, In b before -> p b = false.
Proof.
  induction l as [|a l IH]; [discriminate|]. cbn [find]. destruct (p a) eqn:E.
  - intro H. injection H as <-. exists [], l. split; [reflexivity|]. split; [exact E|]. intros ? [].
  - intro H. destruct (IH H) as (b & t & El & Ep & Hb). exists (a :: b), t. split; [now rewrite El|]. split; [exact Ep|]. intros y [<-|Hy]; [exact E|now apply Hb].
Qed.
Lemma better_same st l : (forall v, In v l -> (snd v <= 0)%Z) -> fold_left better l st = st.
Proof.
  induction l as [|v l IH]; intro H; [reflexivity|]. cbn [fold_left]. unfold better at 2. destruct (Z.ltb_spec 0 (snd v)) as [L|L]; [specialize (H v (or_introl eq_refl)); lia|].
  apply IH. intros w Hw. apply H. now right.
Qed.
Lemma better_min (D : nat -> Z) l : (forall s, In s l -> (0 < D s)%Z) -> forall d o,
  fold_left better (map (fun s => (s, D s)) l) (o, d)
  = (fun best : Z * option nat => (snd best, fst best)) (fold_left (fun best c => if (D c <? fst best)%Z then (D c, Some c) else best) l (d, o)).
Proof.
  induction l as [|s l IH]; intros H d o; [reflexivity|]. cbn [map fold_left]. unfold better at 2. cbn [fst snd]. destruct (Z.ltb_spec 0 (D s)) as [L|L]; [|specialize (H s (or_introl eq_refl)); lia].
  cbn [andb]. destruct (D s <? d)%Z; apply IH; intros t Ht; apply H; now right.
Qed.
Lemma fcc_some s x c : fcc s x = Some c -> exists before after, candidates s x = before ++ c :: after /\ (dist2 s c x < tol)%Z /\ forall b, In b before -> (tol <= dist2 s b x)%Z.
Proof.
  intro H. apply find_first in H as (b & t & E & L & Hb). exists b, t. split; [exact E|]. split; [now apply Z.ltb_lt|]. intros y Hy. apply Z.ltb_ge, Hb, Hy.
Qed.
Lemma fcc_none s x : fcc s x = None -> forall b, In b (candidates s x) -> (tol <= dist2 s b x)%Z.
Proof. intros H b Hb. apply Z.ltb_ge. exact (find_none _ _ H b Hb). Qed.
Lemma collides_fcc s x : collides A candidates dist2 tol s x -> exists c, fcc s x = Some c.
Proof. intros (c & Hc & L). destruct (fcc s x) as [d|] eqn:E; [eauto|]. pose proof (fcc_none s x E c Hc). lia. Qed.
Notation given := (given_to A box_ranks candidates dist2 tol max_val).
Lemma own_ok r x : In x (points r) ->
  (exists q c, own r x = Some q /\ fst (ec r q x) = Some c /\ given r x q c) \/ (own r x = None /\ given_to_none A box_ranks candidates dist2 max_val r x).
Proof.
  intro Hx. unfold own. destruct (fo r x) as [q|] eqn:E.
  - left. rewrite better_same. 2:{ intros v Hv. apply in_map_iff in Hv as (s & <- & _). unfold ec. rewrite E. cbn [none_b snd]. lia. }
    unfold ec. rewrite E. cbn [fst none_b]. destruct (find_first _ _ _ E) as (b & t & El & Ec & Hb). destruct (fcc q x) as [c|] eqn:Eq; [|discriminate].
    exists q, c. split; [reflexivity|]. split; [exact Eq|]. assert (Iq : In q (ranks_of r x)) by (rewrite El; apply in_elt). split; [now apply ranks_of_in in Iq|].
    destruct (fcc_some q x c Eq) as (cb & ca & Ecs & Lc & Hcb). exists cb, ca. split; [exact Ecs|]. left. split; [exact Lc|]. split; [exact Hcb|].
    intros p Hp Hc. apply collides_fcc in Hc as (d & Ed). apply (ranks_of_in r x p Hx) in Hp. pose proof (ranks_of_sorted r x) as S. rewrite El in Hp, S.
    apply in_app_or in Hp as [Hp|[Hp|Hp]]; [specialize (Hb p Hp); cbv beta in Hb; rewrite Ed in Hb; discriminate|lia|].
    pose proof (SS_split_lt b q t p S Hp). lia.
  - assert (NF : forall s, In s (box_ranks r x) -> fcc s x = None).
    { intros s Hs. apply (ranks_of_in r x s Hx) in Hs. pose proof (find_none _ _ E s Hs) as N. cbv beta in N. destruct (fcc s x); [discriminate|reflexivity]. }
    assert (Cl : forall s, In s (box_ranks r x) ->
      (clo s x = (max_val, None) /\ (forall b, In b (candidates s x) -> (max_val <= dist2 s b x)%Z)) \/
      exists cb c ca, candidates s x = cb ++ c :: ca /\ clo s x = (dist2 s c x, Some c) /\ (tol <= dist2 s c x < max_val)%Z /\ (forall b, In b cb -> (dist2 s c x < dist2 s b x)%Z) /\
        (forall b, In b (candidates s x) -> (dist2 s c x <= dist2 s b x)%Z)).
    { intros s Hs. pose proof (fcc_none s x (NF s Hs)) as Hn. destruct (first_min (fun c => dist2 s c x) max_val (candidates s x)) as [G|(cb & c & ca & G1 & G2 & G3 & G4 & G5)]; [left; exact G|].
      right. exists cb, c, ca. split; [exact G1|]. split; [exact G2|]. split; [split; [apply Hn; rewrite G1; apply in_elt|exact G3]|]. split; [exact G4|exact G5]. }
    assert (Ec : forall s, ec r s x = (snd (clo s x), fst (clo s x))) by (intro s; unfold ec; rewrite E; reflexivity).
    rewrite (better_min (fun s => snd (ec r s x))).
    2:{ intros s Hs. apply (ranks_of_in r x s Hx) in Hs. rewrite Ec. cbn [snd]. destruct (Cl s Hs) as [(G & _)|(cb & c & ca & _ & G & L & _)]; rewrite G; cbn [fst]; lia. }
    destruct (first_min (fun s => snd (ec r s x)) max_val (ranks_of r x)) as [(G & H)|(sb & q & sa & G1 & G2 & G3 & G4 & G5)].
    + right. rewrite G. split; [reflexivity|]. intros p b Hp Hb. pose proof (H p (proj2 (ranks_of_in r x p Hx) Hp)) as K. cbv beta in K. rewrite Ec in K. cbn [snd] in K.
      destruct (Cl p Hp) as [(_ & M)|(cb & c & ca & _ & M & L & _ & M')]; [now apply M|]. rewrite M in K. cbn [fst] in K. lia.
    + left. rewrite G2. cbn [fst snd]. assert (Hq : In q (box_ranks r x)) by (apply (ranks_of_in r x q Hx); rewrite G1; apply in_elt).
      destruct (Cl q Hq) as [(K & _)|(cb & c & ca & K1 & K2 & K3 & K4 & K5)]; [rewrite Ec, K in G3; cbn [fst snd] in G3; lia|].
      exists q, c. split; [reflexivity|]. split; [rewrite Ec, K2; reflexivity|]. split; [exact Hq|]. exists cb, ca. split; [exact K1|]. right. split.
      { intros p Hp C. apply collides_fcc in C as (d & Ed). rewrite (NF p Hp) in Ed. discriminate. }
      split; [lia|]. split; [exact K4|]. intros p b Hp Hb. pose proof (proj2 (ranks_of_in r x p Hx) Hp) as Hp'. pose proof (G5 p Hp') as M. cbv beta in M. rewrite !Ec, K2 in M. cbn [fst snd] in M.
      assert (Q : (dist2 q c x <= fst (clo p x) <= dist2 p b x)%Z).
      { split; [exact M|]. destruct (Cl p Hp) as [(N & N')|(cb' & c' & ca' & _ & N & _ & _ & N')]; rewrite N; cbn [fst]; [now apply N'|now apply N']. }
      split; [lia|]. intro Eqd. pose proof (ranks_of_sorted r x) as S. rewrite G1 in Hp', S. apply in_app_or in Hp' as [Hp'|[Hp'|Hp']]; [|lia|].
      * specialize (G4 p Hp'). cbv beta in G4. rewrite !Ec, K2 in G4. cbn [fst snd] in G4. lia.
      * pose proof (SS_split_lt sb q sa p S Hp'). lia.
Qed.

(** ** What the owner gets *)
Lemma concat_filter_nil {T V} (f : T -> list V) (p : T -> bool) l : (forall a, In a l -> p a = false -> f a = []) -> concat (map f (filter p l)) = concat (map f l).
Proof.
  induction l as [|a l IH]; intro H; [reflexivity|]. cbn [filter map concat]. destruct (p a) eqn:E; cbn [map concat].
  - f_equal. apply IH. intros; apply H; [now right|assumption].
  - rewrite (H a (or_introl eq_refl) E). apply IH. intros; apply H; [now right|assumption].
Qed.
Definition is_me (q : nat) (o : option nat) : bool := match o with Some p => p =? q | None => false end.
Lemma own_box r x q : In x (points r) -> is_me q (own r x) = true -> In q (box_ranks r x) /\ own r x = Some q.
Proof.
  intros Hx H. destruct (own_ok r x Hx) as [(p & c & E & _ & G)|(E & _)]; rewrite E in H; cbn in H; [|discriminate]. apply Nat.eqb_eq in H. subst p. split; [exact (proj1 G)|exact E].
Qed.
Definition mine (q r : nat) : list nat := filter (fun i => is_me q (own r (pt r i))) (idx r q).
Lemma mine_eq q r : mine q r = filter (fun i => is_me q (own r (pt r i))) (seq 0 (length (points r))).
Proof.
  unfold mine, idx. rewrite filter_filter. apply filter_ext_in. intros i Hi. apply in_seq in Hi. destruct (is_me q (own r (pt r i))) eqn:E; [|apply andb_false_r].
  rewrite andb_true_r. apply mem_iff. apply own_box in E; [exact (proj1 E)|apply pt_in; lia].
Qed.
Lemma points_for_eq q : q < P -> points_for A P points (fun r => map (own r) (points r)) q = concat (map (fun r => map (fun i => (r, pt r i)) (mine q r)) (inn q)).
Proof.
  intro Hq. rewrite (inn_eq q Hq). rewrite concat_filter_nil.
  - unfold points_for. f_equal. apply map_ext_in. intros r _. rewrite mine_eq.
    rewrite <- (map_nth_seq zero (points r)) at 1. rewrite <- (map_nth_seq zero (points r)) at 2. rewrite map_map, combine_map, filter_map_comm, map_map. reflexivity.
  - intros r Hr E. apply in_seq in Hr. replace (mine q r) with (@nil nat); [reflexivity|]. symmetry. unfold mine. replace (idx r q) with (@nil nat); [reflexivity|].
    symmetry. destruct (idx r q) as [|i l] eqn:Ei; [reflexivity|]. exfalso. assert (Hi : In i (idx r q)) by (rewrite Ei; now left). apply idx_lt in Hi as (Hi & Hb).
    apply not_true_iff_false in E. apply E, mem_iff, out_in. exists (pt r i). split; [now apply pt_in|exact Hb].
Qed.
Definition cells_for (q : nat) : list (option nat) := concat (map (fun r => map (fun i => fst (ec r q (pt r i))) (mine q r)) (inn q)).
Lemma determine_ok q : q < P -> determine_point_ownership P nbx A zero points box_ranks candidates dist2 tol max_val q
  = Some (map (own q) (points q), (map fst (points_for A P points (fun r => map (own r) (points r)) q), map snd (points_for A P points (fun r => map (own r) (points r)) q), cells_for q)).
Proof.
  intro Hq. unfold determine_point_ownership. rewrite (point_owners_ok q Hq). cbn [obind]. rewrite (received_ok q Hq). cbn [obind]. rewrite (extrapolated_ok q Hq). cbn [obind].
  rewrite (send_forward_ok _ (fun s t i => own s (pt s i)) q Hq).
  2:{ intros s Hs. rewrite (point_owners_ok s Hs). cbn [obind]. rewrite packed_ok by (exact Hs || now rewrite map_length). cbn [obind]. f_equal. f_equal. apply map_ext. intro p.
      apply map_ext_in. intros i Hi. apply idx_lt in Hi as (Hi & _). now apply nth_pt. }
  cbn [obind]. rewrite (concat_map fst), map_map.
  rewrite omap_map with (g := fun k => (fun s => map (fun i => (s, (pt s i, fst (ec s q (pt s i))))) (mine q s)) (nth k (inn q) 0)).
  2:{ intros k Hk. apply in_seq in Hk. destruct (nth_error_lt (inn q) k) as (s & Es); [lia|]. rewrite (nth_error_nth _ _ 0 Es), Es. cbn [obind].
      rewrite (slice_blocks (fun s => map (fun i => pt s i) (idx s q)) (inn q) k s _ Es) by (intros; now rewrite map_length). cbn [obind].
      rewrite (slice_blocks (fun s => map fst (map (fun i => ec s q (pt s i)) (idx s q))) (inn q) k s _ Es) by (intros; now rewrite !map_length). cbn [obind].
      rewrite (slice_blocks (fun s => map (fun i => own s (pt s i)) (idx s q)) (inn q) k s _ Es) by (intros; now rewrite map_length). cbn [obind].
      rewrite map_map, !combine_map, filter_map_comm, map_map. reflexivity. }
  cbn [obind]. rewrite (map_seq_nth _ (fun s => map (fun i => (s, (pt s i, fst (ec s q (pt s i))))) (mine q s)) (inn q)) by (intros k s Hk; now rewrite (nth_error_nth _ _ 0 Hk)).
  rewrite (points_for_eq q Hq), !concat_map, !map_map. unfold cells_for. f_equal. f_equal. f_equal; [f_equal|]; f_equal; apply map_ext; intro s; rewrite !map_map; reflexivity.
Qed.

Theorem ownership : exists owners dest_cells,
  (forall q, q < P -> determine_point_ownership P nbx A zero points box_ranks candidates dist2 tol max_val q
     = Some (owners q, (map fst (points_for A P points owners q), map snd (points_for A P points owners q), dest_cells q))) /\
  (forall q, q < P -> length (owners q) = length (points q) /\ length (dest_cells q) = length (points_for A P points owners q)) /\
  (forall r i x, r < P -> nth_error (points r) i = Some x ->
     (exists q c, nth_error (owners r) i = Some (Some q) /\ given r x q c) \/ (nth_error (owners r) i = Some None /\ given_to_none A box_ranks candidates dist2 max_val r x)) /\
  (forall q j r x, q < P -> nth_error (points_for A P points owners q) j = Some (r, x) ->
     exists c, nth_error (dest_cells q) j = Some (Some c) /\ given r x q c).
Proof.
  exists (fun r => map (own r) (points r)), cells_for. split; [intros q Hq; now apply determine_ok|]. split; [|split].
  - intros q Hq. split; [apply map_length|]. rewrite (points_for_eq q Hq). unfold cells_for. rewrite <- !lsum_concat_length, !map_map. f_equal. apply map_ext. intro r. now rewrite !map_length.
  - intros r i x Hr Hx. pose proof (nth_error_In _ _ Hx) as Ix. rewrite nth_error_map_some, Hx. cbn [option_map].
    destruct (own_ok r x Ix) as [(q & c & E & _ & G)|(E & G)]; rewrite E; [left; exists q, c; split; [reflexivity|exact G]|right; split; [reflexivity|exact G]].
  - intros q j r x Hq Hj. rewrite (points_for_eq q Hq) in Hj.
    pose (h := fun p : nat * nat => (fst p, pt (fst p) (snd p))). pose (k := fun p : nat * nat => fst (ec (fst p) q (pt (fst p) (snd p)))).
    assert (E1 : concat (map (fun r => map (fun i => (r, pt r i)) (mine q r)) (inn q)) = map h (concat (map (fun r => map (pair r) (mine q r)) (inn q)))).
    { rewrite concat_map, map_map. f_equal. apply map_ext. intro s. rewrite map_map. reflexivity. }
    assert (E2 : cells_for q = map k (concat (map (fun r => map (pair r) (mine q r)) (inn q)))).
    { unfold cells_for. rewrite concat_map, map_map. f_equal. apply map_ext. intro s. rewrite map_map. reflexivity. }
    rewrite E1, nth_error_map_some in Hj. rewrite E2, nth_error_map_some. destruct (nth_error (concat (map (fun r => map (pair r) (mine q r)) (inn q))) j) as [(s, i)|] eqn:Ej; [|discriminate].
    cbn [option_map] in *. unfold h in Hj. cbn [fst snd] in Hj. injection Hj as Es Ex. subst s. apply nth_error_In in Ej. apply in_concat in Ej as (l & Hl & Ej). apply in_map_iff in Hl as (s & <- & _).
    apply in_map_iff in Ej as (i' & Ei & Hi). injection Ei as -> ->. apply filter_In in Hi as (Hi & Hm). apply idx_lt in Hi as (Hi & _). pose proof (pt_in r i Hi) as Ix.
    apply own_box in Hm as (_ & Ho); [|exact Ix]. destruct (own_ok r _ Ix) as [(p & c & E & Ec & G)|(E & _)]; rewrite Ho in E; [injection E as <-|discriminate].
    exists c. unfold k. cbn [fst snd]. rewrite Ec. split; [reflexivity|]. rewrite <- Ex. exact G.
Qed.
End Ownership.

Section Unique.
Variables (A : Type) (box_ranks candidates : nat -> A -> list nat) (dist2 : nat -> nat -> A -> Z) (tol max_val : Z).
Notation given := (given_to A box_ranks candidates dist2 tol max_val).
Lemma given_unique r r' x q q' c c' : (forall p, In p (box_ranks r x) <-> In p (box_ranks r' x)) -> given r x q c -> given r' x q' c' -> q = q'.
Proof.
  intros Hb (Hq & b & a & E & H) (Hq' & b' & a' & E' & H'). pose proof (proj2 (Hb q') Hq') as Kq'. pose proof (proj1 (Hb q) Hq) as Kq.
  assert (Ic : In c (candidates q x)) by (rewrite E; apply in_elt). assert (Ic' : In c' (candidates q' x)) by (rewrite E'; apply in_elt).
  destruct H as [(L & _ & M)|(N & _ & _ & M)]; destruct H' as [(L' & _ & M')|(N' & _ & _ & M')].
  - pose proof (M q' Kq' (ex_intro _ c' (conj Ic' L'))). pose proof (M' q Kq (ex_intro _ c (conj Ic L))). lia.
  - destruct (N' q Kq). exists c. split; assumption.
  - destruct (N q' Kq'). exists c'. split; assumption.
  - destruct (M q' c' Kq' Ic') as (D1 & D2). destruct (M' q c Kq Ic) as (D3 & D4). assert (D : dist2 q c x = dist2 q' c' x) by lia. pose proof (D2 D). pose proof (D4 (eq_sym D)). lia.
Qed.
Lemma given_not_none r r' x q c : (tol <= max_val)%Z -> (forall p, In p (box_ranks r x) <-> In p (box_ranks r' x)) -> given r x q c -> given_to_none A box_ranks candidates dist2 max_val r' x -> False.
Proof.
  intros Ht Hb (Hq & b & a & E & H) N. assert (Ic : In c (candidates q x)) by (rewrite E; apply in_elt). pose proof (N q c (proj1 (Hb q) Hq) Ic) as K.
  destruct H as [(L & _)|(_ & L & _)]; lia.
Qed.
End Unique.
Theorem same_point : forall P nbx (A : Type) (zero : A) points box_ranks candidates dist2 tol max_val,
  nbx_oracle P nbx ->
  (forall r x, r < P -> In x (points r) -> NoDup (box_ranks r x) /\ forall q, In q (box_ranks r x) -> q < P) ->
  (0 < tol <= max_val)%Z ->
  forall r r' i i' x owners owners' rest rest', r < P -> r' < P ->
  nth_error (points r) i = Some x -> nth_error (points r') i' = Some x ->
  (forall q, In q (box_ranks r x) <-> In q (box_ranks r' x)) ->
  determine_point_ownership P nbx A zero points box_ranks candidates dist2 tol max_val r = Some (owners, rest) ->
  determine_point_ownership P nbx A zero points box_ranks candidates dist2 tol max_val r' = Some (owners', rest') ->
  exists o, nth_error owners i = Some o /\ nth_error owners' i' = Some o.
Proof.
  intros P nbx A zero points box_ranks candidates dist2 tol max_val Hn Hb Ht r r' i i' x o o' t t' Hr Hr' Hi Hi' Hs Hd Hd'.
  destruct (ownership P nbx A zero points box_ranks candidates dist2 tol max_val Hn Hb Ht) as (ow & dc & H1 & _ & H3 & _).
  rewrite (H1 r Hr) in Hd. injection Hd as Eo _. rewrite (H1 r' Hr') in Hd'. injection Hd' as Eo' _. subst o o'.
  assert (Hs' : forall q, In q (box_ranks r' x) <-> In q (box_ranks r x)) by (intro; now rewrite Hs).
  destruct (H3 r i x Hr Hi) as [(q & c & E & G)|(E & G)]; destruct (H3 r' i' x Hr' Hi') as [(q' & c' & E' & G')|(E' & G')].
  - exists (Some q). split; [exact E|]. now rewrite (given_unique A box_ranks candidates dist2 tol max_val r r' x q q' c c' Hs G G').
  - exfalso. exact (given_not_none A box_ranks candidates dist2 tol max_val r r' x q c (proj2 Ht) Hs G G').
  - exfalso. exact (given_not_none A box_ranks candidates dist2 tol max_val r' r x q' c' (proj2 Ht) Hs' G' G).
  - exists None. split; assumption.
Qed.
