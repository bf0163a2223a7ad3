(** scatter_values brings each row to the entry it was computed for. *)
From Verif Require Import Base BaseProofs BucketProofs Algo AlgoProofs World WorldProofs Interp InterpWrites NonMatching.

Lemma lastv_fun {T} a (v : T) ws : In (a, v) ws -> (forall v', In (a, v') ws -> v' = v) -> lastv a ws = Some v.
Proof.
  intros H F. destruct (lastv a ws) as [w|] eqn:E.
  - f_equal. apply F. now apply lastv_in.
  - exfalso. exact (proj1 (lastv_none _ _) E v H).
Qed.
Lemma SS_index_le l : StronglySorted lt l -> forall i j x y, nth_error l i = Some x -> nth_error l j = Some y -> x <= y -> i <= j.
Proof.
  induction 1 as [|a l S IH F]; intros [|i] [|j] x y Hx Hy L; try discriminate; cbn in *; try lia.
  - injection Hy as ->. rewrite Forall_forall in F. specialize (F x (nth_error_In _ _ Hx)). lia.
  - specialize (IH _ _ _ _ Hx Hy L). lia.
Qed.
Lemma SS_skipn l k : StronglySorted lt l -> StronglySorted lt (skipn k l).
Proof.
  revert k. induction l as [|a l IH]; intros [|k] H; cbn; auto. apply IH. now inversion H.
Qed.
Lemma nth_error_skipn {A} (l : list A) : forall m i, nth_error (skipn m l) i = nth_error l (m + i).
Proof. induction l as [|x l IH]; intros [|m] i; cbn; auto. now destruct i. Qed.

Definition owned_by (q : nat) (o : option nat) : bool := match o with Some p => p =? q | None => false end.
Lemma owned_by_iff q o : owned_by q o = true <-> o = Some q.
Proof. destruct o; cbn; [rewrite Nat.eqb_eq; split; congruence|split; discriminate]. Qed.

(** Positions of the entries of an owner, in order. *)
Fixpoint positions (q s : nat) (l : list (option nat)) : list nat :=
  match l with [] => [] | o :: t => (if owned_by q o then [s] else []) ++ positions q (S s) t end.
Lemma positions_length q l : forall s, length (positions q s l) = countb (owned_by q) l.
Proof. induction l as [|o l IH]; intro s; cbn; [reflexivity|]. rewrite app_length, IH. now destruct (owned_by q o). Qed.
Lemma positions_nth q l : forall s t i, nth_error (positions q s l) t = Some i <-> s <= i /\ nth_error l (i - s) = Some (Some q) /\ t = countb (owned_by q) (firstn (i - s) l).
Proof.
  induction l as [|o l IH]; intros s t i; cbn [positions].
  - split; [destruct t; discriminate|]. intros (_ & H & _). destruct (i - s); discriminate.
  - destruct (owned_by q o) eqn:E.
    + cbn [app]. destruct t as [|t]; cbn [nth_error].
      * split.
        -- intro H. injection H as <-. rewrite Nat.sub_diag. cbn. split; [lia|]. split; [|reflexivity]. f_equal. now apply owned_by_iff.
        -- intros (H1 & H2 & H3). destruct (i - s) as [|d] eqn:D; [f_equal; lia|]. cbn in H3. rewrite E in H3. lia.
      * rewrite IH. split.
        -- intros (H1 & H2 & H3). split; [lia|]. replace (i - s) with (S (i - S s)) by lia. cbn. rewrite E. split; [exact H2|lia].
        -- intros (H1 & H2 & H3). destruct (i - s) as [|d] eqn:D; [discriminate|]. cbn in H2, H3. rewrite E in H3. replace (i - S s) with d by lia. split; [lia|]. split; [exact H2|lia].
    + cbn [app]. rewrite IH. split.
      * intros (H1 & H2 & H3). split; [lia|]. replace (i - s) with (S (i - S s)) by lia. cbn. rewrite E. split; [exact H2|lia].
      * intros (H1 & H2 & H3). destruct (i - s) as [|d] eqn:D.
        -- cbn in H2. injection H2 as ->. cbn in E. now rewrite Nat.eqb_refl in E.
        -- cbn in H2, H3. rewrite E in H3. replace (i - S s) with d by lia. split; [lia|]. split; [exact H2|lia].
Qed.

Lemma map_snd_combine' {A B} (l : list A) : forall m : list B, length l = length m -> map snd (combine l m) = m.
Proof. induction l as [|x l IH]; intros [|y m] H; try discriminate; cbn; [reflexivity|]. f_equal. apply IH. now injection H. Qed.
Lemma digits_inj n a b c d : b < n -> d < n -> a * n + b = c * n + d -> a = c /\ b = d.
Proof. intros Hb Hd E. assert (a = c) by nia. subst. lia. Qed.
Lemma lsum_const (l : list nat) n : (forall x, In x l -> x = n) -> lsum l = length l * n.
Proof.
  induction l as [|x l IH]; intro H; [reflexivity|]. rewrite lsum_cons, IH by (intros; apply H; now right). rewrite (H x (or_introl eq_refl)). cbn [length]. lia.
Qed.
Lemma nth_error_uniform {A} (L : list (list A)) n i j row : (forall row, In row L -> length row = n) -> nth_error L i = Some row -> j < n -> nth_error (concat L) (i * n + j) = nth_error row j.
Proof.
  intros H Hi Hj. pose proof (nth_error_concat L i row j Hi) as N. rewrite (H row (nth_error_In _ _ Hi)) in N. rewrite <- (N Hj). f_equal. f_equal.
  rewrite (lsum_const _ n).
  - rewrite firstn_length_le; [reflexivity|]. rewrite map_length. apply Nat.lt_le_incl. eapply nth_error_bound; eauto.
  - intros x Hx. assert (Hx' : In x (map (@length A) L)) by (rewrite <- (firstn_skipn i); apply in_or_app; now left). clear Hx; rename Hx' into Hx. apply in_map_iff in Hx as (r & <- & Hr). now apply H.
Qed.
Lemma slice_uniform {A} (L : list (list A)) n i row : (forall row, In row L -> length row = n) -> nth_error L i = Some row -> slice (concat L) (i * n) (i * n + n) = Some row.
Proof.
  intros H Hi. apply nth_error_split in Hi as (l1 & l2 & -> & <-). rewrite concat_app. cbn [concat].
  assert (E : length (concat l1) = length l1 * n). { rewrite <- lsum_concat_length, (lsum_const _ n), map_length; [reflexivity|]. intros x Hx. apply in_map_iff in Hx as (r & <- & Hr). apply H. apply in_or_app. now left. }
  rewrite <- E. pose proof (slice_app_mid (concat l1) row (concat l2)) as S. rewrite (H row) in S by (apply in_or_app; right; now left). exact S.
Qed.

Section Scatter.
Variables (P : nat) (T : Type) (zero : T) (bs : nat).
Variables (src_ranks : nat -> list nat) (dest_ranks : nat -> list (option nat)) (send_values : nat -> list T).
Variable block : nat -> nat -> list (list T).
Hypothesis bs_pos : 0 < bs.
Hypothesis dest_ok : forall r q, r < P -> In (Some q) (dest_ranks r) -> q < P.
Hypothesis src_ok : forall q, q < P -> src_ranks q = concat (map (fun r => repeat r (countb (owned_by q) (dest_ranks r))) (seq 0 P)).
Hypothesis block_ok : forall q r, q < P -> r < P -> length (block q r) = countb (owned_by q) (dest_ranks r) /\ forall row, In row (block q r) -> length row = bs.
Hypothesis send_ok : forall q, q < P -> send_values q = concat (map (fun r => concat (block q r)) (seq 0 P)).

Lemma src_in q r : q < P -> (In r (src_ranks q) <-> r < P /\ In (Some q) (dest_ranks r)).
Proof.
  intro Hq. rewrite (src_ok q Hq). rewrite in_concat. split.
  - intros (l & Hl & Hr). apply in_map_iff in Hl as (r' & <- & Hr'). apply in_seq in Hr'. pose proof (repeat_spec _ _ _ Hr) as ->. split; [lia|].
    destruct (countb (owned_by q) (dest_ranks r')) eqn:E; [destruct Hr|]. rewrite countb_filter in E.
    destruct (filter (owned_by q) (dest_ranks r')) as [|o l] eqn:F; [discriminate|]. assert (I : In o (o :: l)) by now left. rewrite <- F in I.
    apply filter_In in I as (I & K). apply owned_by_iff in K. now subst o.
  - intros (Hr & Hin). exists (repeat r (countb (owned_by q) (dest_ranks r))). split; [apply (in_map (fun r => repeat r (countb (owned_by q) (dest_ranks r)))); apply in_seq; lia|].
    rewrite countb_filter. assert (I : In (Some q) (filter (owned_by q) (dest_ranks r))) by (apply filter_In; split; [exact Hin|now apply owned_by_iff]).
    destruct (filter (owned_by q) (dest_ranks r)); [destruct I|]. now left.
Qed.
Lemma src_sorted q : q < P -> StronglySorted le (src_ranks q).
Proof.
  intro Hq. rewrite (src_ok q Hq). set (g := fun r => countb (owned_by q) (dest_ranks r)).
  assert (G : forall n s, StronglySorted le (concat (map (fun r => repeat r (g r)) (seq s n))) /\ forall x, In x (concat (map (fun r => repeat r (g r)) (seq s n))) -> s <= x).
  { induction n as [|n IH]; intro s; [cbn; split; [constructor|tauto]|]. cbn [seq map concat]. destruct (IH (S s)) as (S1 & S2). split.
    - induction (g s) as [|m IHm]; [exact S1|]. cbn [repeat app]. constructor; [exact IHm|]. apply Forall_forall. intros x Hx. apply in_app_or in Hx as [Hx|Hx]; [apply repeat_spec in Hx; lia|]. specialize (S2 _ Hx). lia.
    - intros x Hx. apply in_app_or in Hx as [Hx|Hx]; [apply repeat_spec in Hx; lia|]. specialize (S2 _ Hx). lia. }
  exact (proj1 (G P 0)).
Qed.
Lemma out_eq q : q < P -> sc_out src_ranks q = sort_uniq (src_ranks q).
Proof.
  intro Hq. unfold sc_out, sort_uniq. rewrite (nsort_unique (src_ranks q) (src_ranks q)); [reflexivity|now apply src_sorted|apply Permutation_refl].
Qed.
Lemma out_in q r : q < P -> (In r (sc_out src_ranks q) <-> r < P /\ In (Some q) (dest_ranks r)).
Proof. intro Hq. rewrite out_eq, sort_uniq_in by exact Hq. now apply src_in. Qed.
Lemma in_in r q : In q (sc_in dest_ranks r) <-> In (Some q) (dest_ranks r).
Proof.
  unfold sc_in. rewrite sort_uniq_in, in_concat. split.
  - intros (l & Hl & Hq). apply in_map_iff in Hl as (o & <- & Ho). destruct o as [p|]; [|destruct Hq]. destruct Hq as [->|[]]. exact Ho.
  - intro H. exists [q]. split; [|now left]. apply in_map_iff. now exists (Some q).
Qed.
Lemma out_sorted q : q < P -> StronglySorted lt (sc_out src_ranks q).
Proof. intro Hq. rewrite out_eq by exact Hq. apply sort_uniq_sorted. Qed.
Lemma in_sorted r : StronglySorted lt (sc_in dest_ranks r).
Proof. apply sort_uniq_sorted. Qed.

Lemma scatter_graph : graph_ok P (sc_in dest_ranks) (sc_out src_ranks).
Proof.
  intros r Hr. split; [apply SS_lt_NoDup; now apply out_sorted|]. split; [apply SS_lt_NoDup, in_sorted|]. split.
  - intro d. rewrite out_in by exact Hr. now rewrite in_in.
  - intro s. rewrite in_in. split.
    + intro H. pose proof (dest_ok r s Hr H) as Hs. split; [exact Hs|]. apply out_in; auto.
    + intros (Hs & H). now apply out_in in H as (_ & H).
Qed.

(** Sizes *)
Lemma modify_counts {A} (keys : list nat) (g : nat -> nat) (p : A -> option nat) (pre : list A) a k x :
  nth_error keys k = Some x -> NoDup keys -> p a = Some x -> (forall y, g y = bs * countb (fun a => match p a with Some z => z =? y | None => false end) pre) ->
  modify (map g keys) k (fun n => n + bs) = Some (map (fun y => bs * countb (fun a => match p a with Some z => z =? y | None => false end) (pre ++ [a])) keys).
Proof.
  intros Hk ND Hp Hg. destruct (modify_some (map g keys) k (fun n => n + bs)) as (l' & E); [rewrite map_length; eapply nth_error_bound; eauto|].
  rewrite E. f_equal. apply nth_error_ext. intro i. rewrite (modify_nth _ _ _ i _ E), !nth_error_map_some.
  destruct (Nat.eqb_spec k i) as [<-|N].
  - rewrite Hk. cbn [option_map]. rewrite Hg, countb_app. cbn [countb]. rewrite Hp, Nat.eqb_refl. f_equal. nia.
  - destruct (nth_error keys i) as [y|] eqn:Ey; [|reflexivity]. cbn [option_map]. rewrite Hg, countb_app. cbn [countb]. rewrite Hp.
    destruct (Nat.eqb_spec x y) as [->|_]; [|f_equal; nia]. exfalso. apply N. eapply NoDup_nth_error_inj; eauto.
Qed.

Lemma find_in r q k : find_sorted (sc_in dest_ranks r) q = Some k <-> nth_error (sc_in dest_ranks r) k = Some q.
Proof.
  rewrite find_sorted_spec by apply in_sorted. split; [apply index_in_some|]. intro H. apply index_in_nth; [apply SS_lt_NoDup, in_sorted|exact H].
Qed.
Lemma count_same (l : list (option nat)) y : countb (fun a : option nat => match a with Some z => z =? y | None => false end) l = countb (owned_by y) l.
Proof. induction l as [|[z|] l IH]; cbn; congruence. Qed.

Lemma recv_sizes_spec r : recv_sizes bs dest_ranks r = Some (map (fun s => bs * countb (owned_by s) (dest_ranks r)) (sc_in dest_ranks r)).
Proof.
  unfold recv_sizes.
  destruct (ofold_prefix_ind (fun sizes (o : option nat) => match o with
      | Some rank => k <- find_sorted (sc_in dest_ranks r) rank ;; modify sizes k (fun n => n + bs)
      | None => Some sizes
      end) (fun pre sizes => sizes = map (fun s => bs * countb (owned_by s) pre) (sc_in dest_ranks r)) (dest_ranks r) (repeat 0 (length (sc_in dest_ranks r)))) as (sizes & E & ->).
  - cbn. rewrite <- map_const. apply map_ext. intro. lia.
  - intros pre o post sizes Hsplit ->. destruct o as [q|].
    + assert (Hin : In q (sc_in dest_ranks r)) by (apply in_in; rewrite Hsplit; apply in_or_app; right; now left).
      apply In_nth_error in Hin as (k & Hk). rewrite (proj2 (find_in r q k) Hk). cbn [obind].
      rewrite (modify_counts (sc_in dest_ranks r) (fun s => bs * countb (owned_by s) pre) (fun a => a) pre (Some q) k q Hk).
      * eexists. split; [reflexivity|]. apply map_ext. intro y. now rewrite count_same.
      * apply SS_lt_NoDup, in_sorted.
      * reflexivity.
      * intro y. now rewrite count_same.
    + eexists. split; [reflexivity|]. apply map_ext. intro y. rewrite countb_app. cbn. lia.
  - exact E.
Qed.

Lemma count_src q r : q < P -> countb (fun z => z =? r) (src_ranks q) = if r <? P then countb (owned_by q) (dest_ranks r) else 0.
Proof.
  intro Hq. rewrite (src_ok q Hq). set (g := fun r => countb (owned_by q) (dest_ranks r)).
  assert (R : forall x m, countb (fun z => z =? r) (repeat x m) = if x =? r then m else 0).
  { intros x m. induction m as [|m IH]; cbn; [now destruct (x =? r)|]. rewrite IH. now destruct (x =? r). }
  assert (G : forall n s, countb (fun z => z =? r) (concat (map (fun r => repeat r (g r)) (seq s n))) = if (s <=? r) && (r <? s + n) then g r else 0).
  { induction n as [|n IH]; intro s; cbn [seq map concat].
    - cbn [countb]. destruct (Nat.leb_spec s r), (Nat.ltb_spec r (s + 0)); cbn [andb]; lia.
    - rewrite countb_app, R, IH. destruct (Nat.eqb_spec s r) as [->|N].
      + destruct (Nat.leb_spec (S r) r), (Nat.leb_spec r r), (Nat.ltb_spec r (r + S n)); cbn [andb]; lia.
      + destruct (Nat.leb_spec (S s) r), (Nat.leb_spec s r), (Nat.ltb_spec r (s + S n)), (Nat.ltb_spec r (S s + n)); cbn [andb]; lia. }
  rewrite G. reflexivity.
Qed.

Lemma send_sizes_spec q : q < P -> send_sizes bs src_ranks q = Some (map (fun d => bs * countb (owned_by q) (dest_ranks d)) (sc_out src_ranks q)).
Proof.
  intro Hq. unfold send_sizes.
  destruct (ofold_prefix_ind (fun st rank => let '(start, sizes) := st in
      let k := start + lower_bound (skipn start (sc_out src_ranks q)) rank in
      y <- nth_error (sc_out src_ranks q) k ;;
      if y =? rank then sizes' <- modify sizes k (fun n => n + bs) ;; Some (k, sizes') else None)
    (fun pre st => snd st = map (fun d => bs * countb (fun z => z =? d) pre) (sc_out src_ranks q) /\
       forall x k post, src_ranks q = pre ++ post -> In x post -> nth_error (sc_out src_ranks q) k = Some x -> fst st <= k)
    (src_ranks q) (0, repeat 0 (length (sc_out src_ranks q)))) as ((start & sizes) & E & S1 & _).
  - cbn. split; [|intros; lia]. rewrite <- map_const. apply map_ext. intro. lia.
  - intros pre a post (start & sizes) Hsplit (S1 & S2). cbn [fst snd] in *. subst sizes.
    assert (Ha : In a (sc_out src_ranks q)). { rewrite out_eq, sort_uniq_in by exact Hq. rewrite Hsplit. apply in_or_app. right. now left. }
    apply In_nth_error in Ha as (k & Hk). pose proof (S2 a k (a :: post) Hsplit (or_introl eq_refl) Hk) as Hle.
    assert (El : lower_bound (skipn start (sc_out src_ranks q)) a = k - start).
    { apply lower_bound_nth; [apply SS_skipn, out_sorted; exact Hq|]. rewrite nth_error_skipn. now replace (start + (k - start)) with k by lia. }
    rewrite El. replace (start + (k - start)) with k by lia. rewrite Hk. cbn [obind]. rewrite Nat.eqb_refl.
    rewrite (modify_counts (sc_out src_ranks q) (fun d => bs * countb (fun z => z =? d) pre) Some pre a k a Hk).
    + cbn [obind]. eexists. split; [reflexivity|]. cbn [fst snd]. split; [reflexivity|].
      intros x k' post' Hs' Hx Hk'. rewrite Hsplit, <- app_assoc in Hs'. apply app_inv_head in Hs'. cbn in Hs'. injection Hs' as <-.
      apply (SS_index_le _ (out_sorted q Hq) k k' a x Hk Hk').
      pose proof (src_sorted q Hq) as SS. rewrite Hsplit in SS. clear -SS Hx. induction pre as [|b pre IH]; cbn in SS; inversion SS as [|? ? S F]; subst; [|now apply IH].
      rewrite Forall_forall in F. now apply F.
    + apply SS_lt_NoDup, out_sorted. exact Hq.
    + reflexivity.
    + reflexivity.
  - transitivity ('(_, sizes0) <- Some (start, sizes) ;; Some sizes0); [exact (f_equal (fun o => '(_, sizes0) <- o ;; Some sizes0) E)|]. cbn [obind]. cbn [snd] in S1. subst sizes. f_equal. apply map_ext_in. intros d Hd. rewrite (count_src q d Hq).
    apply (out_in q d Hq) in Hd as (Hd & _). destruct (Nat.ltb_spec d P); lia.
Qed.

Lemma block_length q r : q < P -> r < P -> length (concat (block q r)) = bs * countb (owned_by q) (dest_ranks r).
Proof.
  intros Hq Hr. destruct (block_ok q r Hq Hr) as (L & R). rewrite <- L, <- lsum_concat_length. rewrite (map_ext_in _ (fun _ => bs)) by exact R. rewrite map_const, lsum_repeat. lia.
Qed.
Lemma not_out q r : q < P -> r < P -> ~ In r (sc_out src_ranks q) -> block q r = [].
Proof.
  intros Hq Hr H. destruct (block_ok q r Hq Hr) as (L & _). destruct (block q r) as [|row l]; [reflexivity|]. exfalso. apply H. apply out_in; [exact Hq|]. split; [exact Hr|].
  rewrite countb_filter in L. cbn in L. destruct (filter (owned_by q) (dest_ranks r)) as [|o m] eqn:F; [discriminate|].
  assert (I : In o (o :: m)) by now left. rewrite <- F in I. apply filter_In in I as (I & K). apply owned_by_iff in K. now subst o.
Qed.
Lemma send_out q : q < P -> send_values q = concat (map (fun r => concat (block q r)) (sc_out src_ranks q)).
Proof.
  intro Hq. rewrite (send_ok q Hq). rewrite out_eq by exact Hq.
  rewrite (sort_uniq_filter P) by (intros x Hx; now apply src_in in Hx).
  assert (G : forall l, (forall r, In r l -> r < P) -> concat (map (fun r => concat (block q r)) l) = concat (map (fun r => concat (block q r)) (filter (fun r => mem r (src_ranks q)) l))).
  { induction l as [|r l IH]; intro H; [reflexivity|]. cbn [map concat filter]. rewrite IH by (intros; apply H; now right). destruct (mem r (src_ranks q)) eqn:E; [reflexivity|].
    rewrite (not_out q r Hq); [reflexivity|apply H; now left|]. rewrite out_eq, sort_uniq_in by exact Hq. intro K. apply mem_iff in K. congruence. }
  apply G. intros r Hr. apply in_seq in Hr. lia.
Qed.

Lemma values_spec r : r < P ->
  neigh_alltoallv P (sc_in dest_ranks) (sc_out src_ranks)
      (fun q => if length (src_ranks q) * bs =? length (send_values q) then
                  sizes <- send_sizes bs src_ranks q ;; Some (send_values q, (sizes, psums sizes))
                else None) (recv_sizes bs dest_ranks) r
  = Some (concat (map (fun q => concat (block q r)) (sc_in dest_ranks r))).
Proof.
  intro Hr. apply (neigh_alltoallv_spec P (sc_in dest_ranks) (sc_out src_ranks) _ _ (fun q r => concat (block q r)) r scatter_graph Hr).
  - intros q Hin. assert (Hq : q < P) by (apply in_in in Hin; eapply dest_ok; eauto).
    assert (L : length (src_ranks q) * bs = length (send_values q)).
    { rewrite (send_ok q Hq), (src_ok q Hq), <- !lsum_concat_length, !map_map.
      assert (G : forall l, (forall r, In r l -> r < P) -> lsum (map (fun x => length (repeat x (countb (owned_by q) (dest_ranks x)))) l) * bs = lsum (map (fun x => length (concat (block q x))) l)).
      { induction l as [|x l IH]; intro H; [reflexivity|]. cbn [map]. rewrite !lsum_cons, <- IH by (intros; apply H; now right).
        rewrite repeat_length, (block_length q x Hq) by (apply H; now left). lia. }
      apply G. intros x Hx. apply in_seq in Hx. lia. }
    rewrite L, Nat.eqb_refl, (send_sizes_spec q Hq). cbn [obind]. rewrite <- (send_out q Hq).
    assert (M : map (fun d => bs * countb (owned_by q) (dest_ranks d)) (sc_out src_ranks q) = map (fun d => length (concat (block q d))) (sc_out src_ranks q)).
    { apply map_ext_in. intros d Hd. apply (out_in q d Hq) in Hd as (Hd & _). now rewrite block_length. }
    now rewrite M.
  - rewrite recv_sizes_spec. f_equal. apply map_ext_in. intros q Hin. rewrite block_length; [reflexivity| |exact Hr]. apply in_in in Hin. eapply dest_ok; eauto.
Qed.

(** Where the rows go. *)
Definition keyed (r : nat) (l : list (nat * option nat)) : list (nat * nat) :=
  concat (map (fun io : nat * option nat => match snd io with
    | Some q => match index_in q (sc_in dest_ranks r) with Some k => [(k, fst io * bs)] | None => [] end
    | None => []
    end) l).
Lemma keyed_app r l1 l2 : keyed r (l1 ++ l2) = keyed r l1 ++ keyed r l2.
Proof. unfold keyed. now rewrite map_app, concat_app. Qed.
Lemma keyed_vals r k q l : forall s, nth_error (sc_in dest_ranks r) k = Some q ->
  vals k (keyed r (combine (seq s (length l)) l)) = map (fun i => i * bs) (positions q s l).
Proof.
  induction l as [|o l IH]; intros s Hk; [reflexivity|]. cbn [length seq combine positions].
  change ((s, o) :: combine (seq (S s) (length l)) l) with ([(s, o)] ++ combine (seq (S s) (length l)) l). rewrite keyed_app, vals_app, IH by exact Hk. rewrite map_app. f_equal.
  unfold keyed. cbn [map concat snd fst]. rewrite app_nil_r. destruct o as [p|]; [|reflexivity]. cbn [owned_by].
  pose proof (SS_lt_NoDup _ (in_sorted r)) as ND. destruct (Nat.eqb_spec p q) as [->|N].
  - rewrite (index_in_nth _ _ _ ND Hk). unfold vals. cbn. now rewrite Nat.eqb_refl.
  - destruct (index_in p (sc_in dest_ranks r)) as [k'|] eqn:E; [|reflexivity]. apply index_in_some in E. unfold vals. cbn. destruct (Nat.eqb_spec k' k) as [->|]; [congruence|reflexivity].
Qed.

Lemma comm_to_output_spec r : comm_to_output bs dest_ranks r = Some (concat (map (fun q => map (fun i => i * bs) (positions q 0 (dest_ranks r))) (sc_in dest_ranks r))).
Proof.
  unfold comm_to_output. rewrite recv_sizes_spec. cbn [obind].
  set (n := length (sc_in dest_ranks r)). set (items := combine (seq 0 (length (dest_ranks r))) (dest_ranks r)). set (kvs := keyed r items).
  pose proof (SS_lt_NoDup _ (in_sorted r)) as ND.
  assert (Hvals : forall k q, nth_error (sc_in dest_ranks r) k = Some q -> length (vals k kvs) = countb (owned_by q) (dest_ranks r)).
  { intros k q Hk. unfold kvs, items. rewrite (keyed_vals r k q _ 0 Hk), map_length. apply positions_length. }
  assert (Hsz : map (fun s => bs * countb (owned_by s) (dest_ranks r)) (sc_in dest_ranks r) = map (fun m => bs * m) (map (fun k => length (vals k kvs)) (seq 0 n))).
  { rewrite map_map. apply nth_error_ext. intro k. rewrite !nth_error_map_some. destruct (Nat.lt_ge_cases k n) as [L|G].
    - rewrite nth_error_seq by exact L. destruct (nth_error_lt (sc_in dest_ranks r) k L) as (q & Hq). rewrite Hq. cbn [option_map plus]. now rewrite (Hvals k q Hq).
    - rewrite (proj2 (nth_error_None _ _)), (proj2 (nth_error_None (seq 0 n) k)); [reflexivity|rewrite seq_length; exact G|exact G]. }
  rewrite Hsz. set (szs := map (fun k => length (vals k kvs)) (seq 0 n)).
  assert (Hps : forall a l, psums_from (bs * a) (map (fun m => bs * m) l) = map (fun m => bs * m) (psums_from a l)).
  { intros a l. revert a. induction l as [|x l IH]; intro a; cbn; [reflexivity|]. f_equal. replace (bs * a + bs * x) with (bs * (a + x)) by lia. apply IH. }
  assert (Hoff : psums (map (fun m => bs * m) szs) = map (fun m => bs * m) (psums szs)).
  { unfold psums. replace 0 with (bs * 0) at 1 by lia. apply Hps. }
  assert (Hall : Forall (fun kv => fst kv < n) kvs).
  { apply Forall_forall. intros kv Hin. unfold kvs, keyed in Hin. apply in_concat in Hin as (l & Hl & Hin). apply in_map_iff in Hl as ([i o] & <- & _). cbn [fst snd] in Hin.
    destruct o as [q|]; [|destruct Hin]. destruct (index_in q (sc_in dest_ranks r)) as [k|] eqn:Ek; [|destruct Hin]. destruct Hin as [<-|[]]. cbn. apply index_in_some in Ek. eapply nth_error_bound; eauto. }
  assert (Hsum : lsum szs = length kvs).
  { rewrite <- (vals_map_seq_total n kvs Hall), <- lsum_concat_length, map_map. reflexivity. }
  assert (Hlast : last (psums (map (fun m => bs * m) szs)) 0 / bs = length kvs).
  { rewrite last_psums. assert (E : lsum (map (fun m => bs * m) szs) = lsum szs * bs). { clear. induction szs as [|x l IH]; [reflexivity|]. cbn [map]. rewrite !lsum_cons, IH. lia. }
    rewrite E, Nat.div_mul by lia. exact Hsum. }
  rewrite Hlast, map_length.
  assert (Ln : length szs = n) by (unfold szs; rewrite map_length; apply seq_length). rewrite Ln.
  destruct (place_all n kvs (map (offk n kvs) (seq 0 n)) (repeat 0 (length kvs)) Hall) as (pos' & Ep & _).
  { intros k Hk. rewrite nth_error_map_some, nth_error_seq by exact Hk. reflexivity. }
  { apply repeat_length. }
  assert (Hout : concat (map (fun k => vals k kvs) (seq 0 n)) = concat (map (fun q => map (fun i => i * bs) (positions q 0 (dest_ranks r))) (sc_in dest_ranks r))).
  { f_equal. apply nth_error_ext. intro k. rewrite !nth_error_map_some. destruct (Nat.lt_ge_cases k n) as [L|G].
    - rewrite nth_error_seq by exact L. destruct (nth_error_lt (sc_in dest_ranks r) k L) as (q & Hq). rewrite Hq. cbn [option_map plus]. f_equal. exact (keyed_vals r k q _ 0 Hq).
    - rewrite (proj2 (nth_error_None (seq 0 n) k)), (proj2 (nth_error_None (sc_in dest_ranks r) k)); [reflexivity|exact G|rewrite seq_length; exact G]. }
  rewrite <- Hout.
  assert (Hpsn : forall k, k < n -> nth_error (psums (map (fun m => bs * m) szs)) k = Some (bs * offk n kvs k)).
  { intros k Hk. rewrite Hoff, nth_error_map_some, psums_nth by lia. reflexivity. }
  set (offsets := psums (map (fun m => bs * m) szs)) in *.
  assert (Sim : forall l pos counter data pos' data',
    (forall i q, In (i, Some q) l -> In q (sc_in dest_ranks r)) ->
    length counter = length pos -> length pos = n ->
    (forall k p, nth_error pos k = Some p -> offk n kvs k <= p /\ nth_error counter k = Some (bs * (p - offk n kvs k))) ->
    ofold place (keyed r l) (pos, data) = Some (pos', data') ->
    exists counter', ofold (fun st io => let '(counter, output) := st in
      match snd io with
      | Some rank =>
        k <- find_sorted (sc_in dest_ranks r) rank ;;
        a <- nth_error offsets k ;; b <- nth_error counter k ;;
        output' <- upd output ((a + b) / bs) (fst io * bs) ;;
        counter' <- upd counter k (b + bs) ;;
        Some (counter', output')
      | None => Some st
      end) l (counter, data) = Some (counter', data')).
  { clear Ep. induction l as [|[i o] l IH]; intros pos counter data pos1 data1 Hin L1 L2 HR E.
    - cbn in E. injection E as _ <-. now exists counter.
    - change ((i, o) :: l) with ([(i, o)] ++ l) in E. rewrite keyed_app, ofold_app in E. cbn [ofold]. cbn [snd fst]. destruct o as [q|].
      + assert (Hq : In q (sc_in dest_ranks r)) by (apply (Hin i); now left). apply In_nth_error in Hq as (k & Hk).
        rewrite (proj2 (find_in r q k) Hk). unfold keyed at 1 in E. cbn [map concat snd fst app] in E. rewrite (index_in_nth _ _ _ ND Hk) in E. cbn [app ofold place fst snd] in E.
        assert (Lk : k < n) by (eapply nth_error_bound; eauto). cbn [obind]. rewrite (Hpsn k Lk). cbn [obind].
        destruct (nth_error pos k) as [p|] eqn:Hp; [|discriminate]. destruct (HR k p Hp) as (Hle & Hc). rewrite Hc. cbn [obind] in E |- *.
        replace (bs * offk n kvs k + bs * (p - offk n kvs k)) with (p * bs) by nia. rewrite Nat.div_mul by lia.
        destruct (upd data p (i * bs)) as [data2|] eqn:Ed; [|discriminate]. cbn [obind] in E |- *.
        destruct (upd pos k (S p)) as [pos2|] eqn:Epos; [|discriminate]. cbn [obind] in E.
        destruct (upd_some counter k (bs * (p - offk n kvs k) + bs)) as (c2 & Ec); [rewrite L1, L2; exact Lk|]. rewrite Ec. cbn [obind].
        apply (IH pos2 c2 data2 pos1 data1).
        * intros i' q' H. apply (Hin i'). now right.
        * rewrite (upd_length _ _ _ _ Ec), (upd_length _ _ _ _ Epos). exact L1.
        * rewrite (upd_length _ _ _ _ Epos). exact L2.
        * intros k' p' Hp'. rewrite (upd_nth _ _ _ k' _ Epos) in Hp'. rewrite (upd_nth _ _ _ k' _ Ec). destruct (Nat.eqb_spec k k') as [<-|N].
          -- injection Hp' as <-. split; [lia|]. f_equal. replace (S p - offk n kvs k) with (S (p - offk n kvs k)) by lia. lia.
          -- now apply HR.
        * exact E.
      + unfold keyed at 1 in E. cbn [map concat snd fst app ofold] in E. cbn [obind] in E |- *.
        apply (IH pos counter data pos1 data1); auto. intros i' q' H. apply (Hin i'). now right. }
  destruct (Sim items (map (offk n kvs) (seq 0 n)) (repeat 0 n) (repeat 0 (length kvs)) pos' (concat (map (fun k => vals k kvs) (seq 0 n)))) as (counter' & E).
  - intros i q H. unfold items in H. apply in_combine_r in H. now apply in_in.
  - now rewrite repeat_length, map_length, seq_length.
  - now rewrite map_length, seq_length.
  - intros k p Hp. rewrite nth_error_map_some in Hp. destruct (nth_error (seq 0 n) k) as [x|] eqn:Ex; [|discriminate]. cbn in Hp. injection Hp as <-.
    assert (Lk : k < n) by (apply nth_error_bound in Ex; now rewrite seq_length in Ex). rewrite nth_error_seq in Ex by exact Lk. injection Ex as <-. cbn [plus]. split; [lia|].
    rewrite nth_error_repeat by exact Lk. f_equal. lia.
  - exact Ep.
  - exact (f_equal (fun o => '(_, output) <- o ;; Some output) E).
Qed.

(** The result: entry [i] with owner [q] gets the row of [q] that belongs to it, the others zero. *)
Definition row_of (r i : nat) : list T :=
  match nth_error (dest_ranks r) i with
  | Some (Some q) => nth (countb (owned_by q) (firstn i (dest_ranks r))) (block q r) []
  | _ => repeat zero bs
  end.
Lemma concat_map_concat {A B} (f : A -> list (list B)) l : concat (map (fun x => concat (f x)) l) = concat (concat (map f l)).
Proof. induction l as [|x l IH]; cbn; [reflexivity|]. now rewrite concat_app, IH. Qed.

Lemma row_of_length r i : r < P -> i < length (dest_ranks r) -> length (row_of r i) = bs.
Proof.
  intros Hr Hi. unfold row_of. destruct (nth_error_lt _ _ Hi) as ([q|] & Ho); rewrite Ho; [|apply repeat_length].
  assert (Hq : q < P) by (eapply dest_ok; [exact Hr|eapply nth_error_In; exact Ho]). destruct (block_ok q r Hq Hr) as (L & R). apply R. apply nth_In. rewrite L.
  pose proof (firstn_skipn i (dest_ranks r)) as F. rewrite <- F at 2. rewrite countb_app.
  assert (1 <= countb (owned_by q) (skipn i (dest_ranks r))); [|lia].
  pose proof (nth_error_skipn (dest_ranks r) i 0) as N. rewrite Nat.add_0_r, Ho in N. destruct (skipn i (dest_ranks r)) as [|o l]; [discriminate|]. cbn in N. injection N as ->.
  cbn. rewrite Nat.eqb_refl. lia.
Qed.
Lemma block_rows q r : q < P -> r < P -> block q r = map (row_of r) (positions q 0 (dest_ranks r)).
Proof.
  intros Hq Hr. destruct (block_ok q r Hq Hr) as (L & _). apply nth_error_ext. intro t. rewrite nth_error_map_some.
  destruct (nth_error (positions q 0 (dest_ranks r)) t) as [i|] eqn:E; cbn [option_map].
  - pose proof E as E'. apply positions_nth in E as (_ & Ho & ->). rewrite Nat.sub_0_r in *. unfold row_of. rewrite Ho. apply nth_error_nth'. apply nth_error_bound in E'. rewrite positions_length in E'. lia.
  - apply nth_error_None in E. apply nth_error_None. rewrite L. now rewrite positions_length in E.
Qed.
Lemma in_concat_positions r i : r < P -> In i (concat (map (fun q => positions q 0 (dest_ranks r)) (sc_in dest_ranks r))) <-> exists q, nth_error (dest_ranks r) i = Some (Some q).
Proof.
  intro Hr. rewrite in_concat. split.
  - intros (l & Hl & Hi). apply in_map_iff in Hl as (q & <- & _). apply In_nth_error in Hi as (t & Ht). apply positions_nth in Ht as (_ & Ho & _). rewrite Nat.sub_0_r in Ho. now exists q.
  - intros (q & Ho). exists (positions q 0 (dest_ranks r)). split.
    + apply (in_map (fun q => positions q 0 (dest_ranks r))). apply in_in. eapply nth_error_In; eauto.
    + apply (nth_error_In _ (countb (owned_by q) (firstn (i - 0) (dest_ranks r)))). apply positions_nth. rewrite Nat.sub_0_r. split; [lia|]. split; [exact Ho|reflexivity].
Qed.

Theorem scatter_values_spec r : r < P ->
  scatter_values P T zero bs src_ranks dest_ranks send_values r = Some (concat (map (row_of r) (seq 0 (length (dest_ranks r))))).
Proof.
  intro Hr. unfold scatter_values. replace (bs =? 0) with false by (symmetry; apply Nat.eqb_neq; lia).
  rewrite (values_spec r Hr). cbn [obind]. rewrite comm_to_output_spec. cbn [obind].
  set (pl := concat (map (fun q => positions q 0 (dest_ranks r)) (sc_in dest_ranks r))).
  assert (E1 : concat (map (fun q => map (fun i => i * bs) (positions q 0 (dest_ranks r))) (sc_in dest_ranks r)) = map (fun i => i * bs) pl).
  { unfold pl. rewrite concat_map, map_map. reflexivity. }
  assert (E2 : concat (map (fun q => concat (block q r)) (sc_in dest_ranks r)) = concat (map (row_of r) pl)).
  { rewrite (concat_map_concat (fun q => block q r)). f_equal. unfold pl. rewrite concat_map, map_map. f_equal. apply map_ext_in. intros q Hq. apply block_rows; [|exact Hr]. apply in_in in Hq. eapply dest_ok; eauto. }
  rewrite E1, E2, map_length.
  assert (Hpl : forall i, In i pl -> exists q, nth_error (dest_ranks r) i = Some (Some q)) by (intros i Hi; now apply (in_concat_positions r i Hr)).
  assert (Hrl : forall i, In i pl -> length (row_of r i) = bs). { intros i Hi. destruct (Hpl i Hi) as (q & Ho). apply row_of_length; [exact Hr|]. eapply nth_error_bound; eauto. }
  assert (Hsl : forall t i, nth_error pl t = Some i -> slice (concat (map (row_of r) pl)) (t * bs) (t * bs + bs) = Some (row_of r i)).
  { intros t i Ht. apply slice_uniform; [|now rewrite nth_error_map_some, Ht]. intros row Hin. apply in_map_iff in Hin as (i' & <- & Hi'). now apply Hrl. }
  assert (Ew : ofold (fun recv ia => vs <- slice (concat (map (row_of r) pl)) (fst ia * bs) (fst ia * bs + bs) ;; copy_to T recv vs (snd ia))
      (combine (seq 0 (length pl)) (map (fun i => i * bs) pl)) (repeat zero (length (dest_ranks r) * bs))
    = wr (concat (map (fun ia => combine (seq (snd ia) bs) (row_of r (snd ia / bs))) (combine (seq 0 (length pl)) (map (fun i => i * bs) pl)))) (repeat zero (length (dest_ranks r) * bs))).
  { apply ofold_writes. intros [t a] arr Hin. cbn [fst snd]. apply In_nth_error in Hin as (t' & Ht').
    pose proof (nth_error_enum (map (fun i => i * bs) pl) 0 t') as N. rewrite map_length in N.
    destruct (nth_error (map (fun i => i * bs) pl) t') as [a'|] eqn:Ea.
    - rewrite (N a' eq_refl) in Ht'. injection Ht' as <- <-. cbn [plus]. rewrite nth_error_map_some in Ea. destruct (nth_error pl t') as [i|] eqn:Ei; [|discriminate]. cbn in Ea. injection Ea as <-.
      rewrite (Hsl t' i Ei). cbn [obind]. rewrite Nat.div_mul by lia. unfold copy_to. now rewrite (Hrl i (nth_error_In _ _ Ei)).
    - exfalso. apply nth_error_None in Ea. rewrite map_length in Ea. apply nth_error_bound in Ht'. rewrite combine_length, seq_length, map_length in Ht'. lia. }
  rewrite Ew. clear Ew.
  assert (Ew : concat (map (fun ia => combine (seq (snd ia) bs) (row_of r (snd ia / bs))) (combine (seq 0 (length pl)) (map (fun i => i * bs) pl)))
    = concat (map (fun i => combine (seq (i * bs) bs) (row_of r i)) pl)).
  { f_equal. rewrite <- (map_map snd (fun a => combine (seq a bs) (row_of r (a / bs)))). rewrite map_snd_combine' by (now rewrite seq_length, map_length). rewrite map_map. apply map_ext. intro i. now rewrite Nat.div_mul by lia. }
  rewrite Ew. clear Ew. set (ws := concat (map (fun i => combine (seq (i * bs) bs) (row_of r i)) pl)).
  assert (Hws : forall a v, In (a, v) ws <-> exists i comp, In i pl /\ comp < bs /\ a = i * bs + comp /\ nth_error (row_of r i) comp = Some v).
  { intros a v. unfold ws. rewrite in_concat. split.
    - intros (l & Hl & Hin). apply in_map_iff in Hl as (i & <- & Hi). exists i. pose proof (Hrl i Hi) as L. apply In_nth_error in Hin as (comp & Hc).
      assert (Lc : comp < bs). { apply nth_error_bound in Hc. rewrite combine_length, seq_length in Hc. lia. }
      exists comp. pose proof (nth_error_lt (row_of r i) comp ltac:(lia)) as (w & Hw). pose proof (nth_error_enum (row_of r i) (i * bs) comp w Hw) as N. rewrite L, Hc in N. injection N as -> ->. auto.
    - intros (i & comp & Hi & Hc & -> & Hv). exists (combine (seq (i * bs) bs) (row_of r i)). split; [apply (in_map (fun i => combine (seq (i * bs) bs) (row_of r i))); exact Hi|].
      pose proof (nth_error_enum (row_of r i) (i * bs) comp v Hv) as N. rewrite (Hrl i Hi) in N. eapply nth_error_In; eauto. }
  destruct (wr_spec ws (repeat zero (length (dest_ranks r) * bs))) as (arr & Ea & La & Na).
  { intros [a v] Hin. apply Hws in Hin as (i & comp & Hi & Hc & -> & _). cbn [fst]. rewrite repeat_length. destruct (Hpl i Hi) as (q & Ho). apply nth_error_bound in Ho. nia. }
  rewrite Ea. f_equal. rewrite repeat_length in La.
  assert (Lc : length (concat (map (row_of r) (seq 0 (length (dest_ranks r))))) = length (dest_ranks r) * bs).
  { rewrite <- lsum_concat_length, map_map, (map_ext_in _ (fun _ => bs)), map_const, lsum_repeat, seq_length by (intros i Hi; apply in_seq in Hi; apply row_of_length; [exact Hr|lia]). lia. }
  apply nth_error_ext. intro a. destruct (Nat.lt_ge_cases a (length (dest_ranks r) * bs)) as [L|G].
  2: { rewrite !(proj2 (nth_error_None _ _)); [reflexivity|lia|lia]. }
  assert (Hdm : a = a / bs * bs + a mod bs) by (rewrite Nat.mul_comm; apply Nat.div_mod; lia). assert (Hm : a mod bs < bs) by (apply Nat.mod_upper_bound; lia).
  assert (Hd : a / bs < length (dest_ranks r)) by (apply Nat.div_lt_upper_bound; lia).
  generalize dependent (a mod bs). generalize dependent (a / bs). intros i Hi comp -> Hc.
  rewrite Na. pose proof (nth_error_uniform (map (row_of r) (seq 0 (length (dest_ranks r)))) bs i comp (row_of r i)) as N. rewrite N; clear N.
  - destruct (nth_error_lt (row_of r i) comp) as (v & Hv); [rewrite row_of_length; auto|]. rewrite Hv. destruct (nth_error_lt _ _ Hi) as ([q|] & Ho).
    + rewrite (lastv_fun (i * bs + comp) v ws); [reflexivity| |].
      * apply Hws. exists i, comp. split; [|auto]. apply (in_concat_positions r i Hr). now exists q.
      * intros v' Hv'. apply Hws in Hv' as (i' & comp' & _ & Hc' & E & Hn). destruct (digits_inj _ _ _ _ _ Hc Hc' E) as (<- & <-). congruence.
    + rewrite (proj2 (lastv_none _ _)).
      * rewrite nth_error_repeat by exact L. unfold row_of in Hv. rewrite Ho in Hv. rewrite nth_error_repeat in Hv by exact Hc. exact Hv.
      * intros v' Hv'. apply Hws in Hv' as (i' & comp' & Hp & Hc' & E & Hn). destruct (digits_inj _ _ _ _ _ Hc Hc' E) as (<- & <-). destruct (Hpl i Hp) as (q & Ho'). congruence.
  - intros row Hin. apply in_map_iff in Hin as (i' & <- & Hi'). apply in_seq in Hi'. apply row_of_length; [exact Hr|lia].
  - rewrite nth_error_map_some, nth_error_seq by exact Hi. reflexivity.
  - exact Hc.
Qed.
End Scatter.
