(** Proofs about the second half of [get_local_indexing]: owners, new numbers, ghosts. *)
From Coq Require Import NArith.
From Verif Require Import Base BaseProofs BucketProofs Algo AlgoProofs TransProofs Nbx World WorldProofs IndexMap IndexMapSpec IndexMapProofs ImSharedProofs SparsityProofs Orient OrientProofs Entities EntitiesSpec NumberProofs LocalIndexing LocalIndexingSpec LiLemmas LiGather.
Open Scope nat_scope.

Lemma combine_app2 {A B} (a b : list A) (x y : list B) : length a = length x -> combine (a ++ b) (x ++ y) = combine a x ++ combine b y.
Proof. revert x. induction a as [|u a IH]; intros [|v x] H; cbn in H; try discriminate; [reflexivity|]. cbn. f_equal. apply IH. lia. Qed.
Lemma positions_ok {A} (L : nat -> list A) ranks : let msgs := concat (map (fun s => map (pair s) (L s)) ranks) in
  positions ranks (map (fun s => length (L s)) ranks) = combine (map fst msgs) (seq 0 (length msgs)).
Proof.
  cbn zeta. unfold positions, psums. generalize 0 as a. induction ranks as [|s t IH]; intros a; [reflexivity|].
  cbn [map psums_from combine concat]. rewrite IH. cbn [fst snd]. rewrite map_app, app_length, map_length, map_map, seq_app. cbn [fst].
  rewrite combine_app2 by (rewrite map_length, seq_length; reflexivity). f_equal.
  rewrite map_const. generalize a as b. induction (length (L s)) as [|n IHn]; intros b; [reflexivity|]. cbn [seq map repeat combine]. f_equal. apply IHn.
Qed.
Lemma pos_ind {S A} (f : S -> nat * nat -> option S) (Inv : list (nat * A) -> S -> Prop) msgs s :
  Inv [] s -> (forall p m q s, msgs = p ++ m :: q -> Inv p s -> exists s', f s (fst m, length p) = Some s' /\ Inv (p ++ [m]) s') ->
  exists s', ofold f (combine (map fst msgs) (seq 0 (length msgs))) s = Some s' /\ Inv msgs s'.
Proof.
  intros H0 Hs.
  assert (G : forall q p s, msgs = p ++ q -> Inv p s -> exists s', ofold f (combine (map fst q) (seq (length p) (length q))) s = Some s' /\ Inv msgs s').
  { induction q as [|m q IH]; intros p s1 E HI.
    - exists s1. split; [reflexivity|]. now rewrite E, app_nil_r.
    - cbn [map length seq combine ofold]. destruct (Hs p m q s1 E HI) as (s2 & E2 & H2). rewrite E2. cbn [obind]. destruct (IH (p ++ [m]) s2) as (s' & E' & H'); [rewrite <- app_assoc; exact E|exact H2|].
      exists s'. split; [|exact H']. rewrite <- E'. f_equal. f_equal. f_equal. rewrite app_length. cbn. lia. }
  apply (G msgs [] s eq_refl H0).
Qed.

(** Positions of the elements with and without a property *)
Lemma countb_seq_S p i : countb p (seq 0 (S i)) = countb p (seq 0 i) + if p i then 1 else 0.
Proof. rewrite seq_S, countb_app. cbn. destruct (p i); lia. Qed.
Lemma countb_seq_mono p i j : i <= j -> countb p (seq 0 i) <= countb p (seq 0 j).
Proof. induction 1; [lia|]. rewrite countb_seq_S. lia. Qed.
Lemma countb_seq_lt p i j : i < j -> p i = true -> countb p (seq 0 i) < countb p (seq 0 j).
Proof. intros H E. pose proof (countb_seq_mono p (S i) j H) as M. rewrite countb_seq_S, E in M. lia. Qed.
Lemma countb_seq_both p n : countb p (seq 0 n) + countb (fun i => negb (p i)) (seq 0 n) = n.
Proof. induction n as [|n IH]; [reflexivity|]. rewrite !countb_seq_S. destruct (p n); cbn [negb]; lia. Qed.
Definition cpos (p : nat -> bool) (c i : nat) : nat := if p i then countb p (seq 0 i) else countb p (seq 0 c) + countb (fun i => negb (p i)) (seq 0 i).
Lemma cpos_lt p c i : i < c -> cpos p c i < c.
Proof.
  intros H. unfold cpos. pose proof (countb_seq_both p c). destruct (p i) eqn:E.
  - pose proof (countb_seq_lt p i c H E). lia.
  - pose proof (countb_seq_lt (fun i => negb (p i)) i c H) as L. cbn beta in L. rewrite E in L. specialize (L eq_refl). lia.
Qed.
Lemma cpos_owned p c i : i < c -> (cpos p c i < countb p (seq 0 c) <-> p i = true).
Proof. intros H. unfold cpos. destruct (p i) eqn:E; [pose proof (countb_seq_lt p i c H E); tauto|]. split; [lia|discriminate]. Qed.
Lemma countb_seq_inj p i j : p i = true -> p j = true -> countb p (seq 0 i) = countb p (seq 0 j) -> i = j.
Proof. intros Hi Hj E. destruct (Nat.lt_trichotomy i j) as [L|[L|L]]; [|exact L|]; [pose proof (countb_seq_lt p i j L Hi)|pose proof (countb_seq_lt p j i L Hj)]; lia. Qed.
Lemma cpos_inj p c i j : i < c -> j < c -> cpos p c i = cpos p c j -> i = j.
Proof.
  intros Hi Hj E. pose proof (cpos_owned p c i Hi) as Oi. pose proof (cpos_owned p c j Hj) as Oj. unfold cpos in *. destruct (p i) eqn:Ei, (p j) eqn:Ej.
  - now apply (countb_seq_inj p).
  - exfalso. destruct Oi as [_ Oi], Oj as [Oj _]. specialize (Oi eq_refl). rewrite E in Oi. specialize (Oj Oi). discriminate.
  - exfalso. destruct Oj as [_ Oj], Oi as [Oi _]. specialize (Oj eq_refl). rewrite <- E in Oj. specialize (Oi Oj). discriminate.
  - apply (countb_seq_inj (fun i => negb (p i))); [now rewrite Ei|now rewrite Ej|lia].
Qed.
(** The k-th element *)
Lemma filter_seq_nth p n i : i < n -> p i = true -> nth_error (filter p (seq 0 n)) (countb p (seq 0 i)) = Some i.
Proof.
  intros Hi Hp. replace n with (i + (1 + (n - i - 1))) by lia. rewrite seq_app, filter_app, countb_filter. rewrite nth_error_app2 by lia. rewrite Nat.sub_diag. cbn [seq plus filter]. rewrite Hp. reflexivity.
Qed.
Lemma filter_seq_ex p n k : k < countb p (seq 0 n) -> exists i, i < n /\ p i = true /\ countb p (seq 0 i) = k.
Proof.
  intros Hk. rewrite countb_filter in Hk. apply nth_error_lt in Hk as (i & Ei). pose proof (nth_error_In _ _ Ei) as Hi. apply filter_In in Hi as [Hi Hp]. apply in_seq in Hi. exists i. split; [lia|]. split; [exact Hp|].
  pose proof (filter_seq_nth p n i ltac:(lia) Hp) as E. assert (NoDup (filter p (seq 0 n))) as Hnd by apply NoDup_filter, seq_NoDup. eapply NoDup_nth_error_inj; eauto.
Qed.

Lemma fill_rest_ok (p : nat -> bool) c n0 : fill_rest (map (fun i => if p i then Some (countb p (seq 0 i)) else None) (seq 0 c)) n0
  = (map (fun i => if p i then countb p (seq 0 i) else n0 + countb (fun i => negb (p i)) (seq 0 i)) (seq 0 c), n0 + countb (fun i => negb (p i)) (seq 0 c)).
Proof.
  unfold fill_rest. induction c as [|c IH]; [cbn; now rewrite Nat.add_0_r|].
  rewrite (countb_seq_S _ c). replace (seq 0 (S c)) with (seq 0 c ++ [c]) by (rewrite seq_S; reflexivity). rewrite !map_app, fold_left_app, IH. cbn [map fold_left fst snd]. destruct (p c); cbn [negb]; f_equal; lia.
Qed.

Section Li.
Variables (P : nat) (nbx : (nat -> list nat) -> nat -> list nat) (maps : nat -> imap) (nv : nat) (inp : nat -> li_input).
Hypothesis Hnbx : nbx_oracle P nbx.
Hypothesis Hok : maps_ok P maps.
Hypothesis OK : li_ok P maps nv inp.

Notation c r := (length (li_ghost (inp r))).
Notation nb := (nbrs P nbx maps).
Notation gv := (gv maps inp).
Notation st := (st inp).
Notation sent := (sent maps inp).
Notation lookup := (lookup maps inp).
Definition gvm (m : nat * nat) : list nat := gv (fst m) (snd m).
Definition msgs (r : nat) : list (nat * nat) := concat (map (fun s => map (pair s) (sent s r)) (nb r)).

Lemma concat_msgs {A} (f : nat * nat -> A) r : concat (map (fun s => map (fun id => f (s, id)) (sent s r)) (nb r)) = map f (msgs r).
Proof using Type. unfold msgs. rewrite concat_map, map_map. f_equal. apply map_ext. intros s. now rewrite map_map. Qed.
Lemma received_ok r : r < P -> received P nbx maps nv inp r = Some (map gvm (msgs r), map (fun s => length (sent s r)) (nb r)).
Proof.
  intros Hr. unfold received. rewrite (exchange_spec P nb nb _ (fun s d => map (gv s) (sent s d)) r (nb_graph P nbx maps Hnbx Hok) Hr).
  - f_equal. f_equal; [apply (concat_msgs gvm r)|]. apply map_ext. intros s. apply map_length.
  - intros s Hs. assert (s < P) as HsP by (apply (nb_in P nbx maps Hnbx Hok) in Hs; tauto). unfold send_entities. destruct (gathered_ok P nbx maps nv inp Hnbx Hok OK s HsP) as (e2l & perm & -> & _). cbn [obind].
    assert (map (map fst) (map (fun q => map (fun id => (gv s id, id)) (sent s q)) (nb s)) = map (fun d => map (gv s) (sent s d)) (nb s)) as ->.
    { rewrite map_map. apply map_ext. intros q. now rewrite map_map. }
    now rewrite map_map.
Qed.
Lemma positions_msgs r : positions (nb r) (map (fun s => length (sent s r)) (nb r)) = combine (map fst (msgs r)) (seq 0 (length (msgs r))).
Proof using Type. apply positions_ok. Qed.
Lemma msgs_in r s id : r < P -> In (s, id) (msgs r) <-> In s (nb r) /\ id < c s /\ st s id <> 1 /\ forallb (holdsb maps r) (gv s id) = true.
Proof using Type.
  intros Hr. unfold msgs. rewrite in_concat. split.
  - intros (l & Hl & Hin). apply in_map_iff in Hl as (s' & <- & Hs'). apply in_map_iff in Hin as (id' & E & Hid). injection E as -> ->. apply filter_In in Hid as [H1 H2]. apply in_seq in H1. apply andb_true_iff in H2 as [H2 H3].
    split; [exact Hs'|]. split; [lia|]. split; [|exact H3]. intros E. rewrite E in H2. discriminate.
  - intros (H1 & H2 & H3 & H4). exists (map (pair s) (sent s r)). split; [apply in_map_iff; eauto|]. apply in_map_iff. exists id. split; [reflexivity|]. apply filter_In. split; [apply in_seq; lia|]. rewrite H4, andb_true_r. now destruct (Nat.eqb_spec (st s id) 1).
Qed.
Lemma msgs_rank r m : r < P -> In m (msgs r) -> fst m < P /\ fst m <> r /\ snd m < c (fst m) /\ st (fst m) (snd m) <> 1.
Proof. intros Hr. destruct m as [s id]. intros H. apply msgs_in in H as (H1 & H2 & H3 & _); [|exact Hr]. apply (nb_in P nbx maps Hnbx Hok) in H1 as (H1 & H4 & _); [|exact Hr]. cbn. auto. Qed.

Definition look_m (r : nat) (m : nat * nat) : option nat := lookup r (gvm m).
Lemma matched_ok r : r < P -> matched P nbx maps nv inp r
  = Some (map (look_m r) (msgs r),
          concat (map (fun m => match look_m r m with Some i => [(i, fst m); (i, r)] | None => [] end) (msgs r)),
          concat (map (fun m => match look_m r m with Some i => map (fun v => (i, v)) (gvm m) | None => [] end) (msgs r))).
Proof.
  intros Hr. unfold matched. destruct (gathered_ok P nbx maps nv inp Hnbx Hok OK r Hr) as (e2l & perm & -> & HF). cbn [obind]. rewrite (received_ok r Hr). cbn [obind]. rewrite positions_msgs.
  match goal with |- ofold ?f _ ?s0 = _ => destruct (pos_ind f (fun p s => s = (map (look_m r) p,
          concat (map (fun m => match look_m r m with Some i => [(i, fst m); (i, r)] | None => [] end) p),
          concat (map (fun m => match look_m r m with Some i => map (fun v => (i, v)) (gvm m) | None => [] end) p))) (msgs r) s0) as (s' & E & ->); [reflexivity| |exact E] end.
  intros p m q s E ->. cbn [fst snd]. rewrite nth_error_map, E, nth_error_app2, Nat.sub_diag by lia. cbn [nth_error option_map obind].
  assert (In m (msgs r)) as Hm by (rewrite E; apply in_elt). destruct (msgs_rank r m Hr Hm) as (H1 & H2 & H3 & H4).
  pose proof (HF (fst m) (snd m) H1 H2 H3) as HFm. fold (gvm m) in HFm. rewrite HFm. fold (look_m r m).
  rewrite !map_app, !concat_app. cbn [map concat]. rewrite !app_nil_r. destruct (look_m r m); (eexists; split; [reflexivity|]); rewrite ?app_nil_r; reflexivity.
Qed.

(** ** Owners *)
Definition ngb (e : list nat) (q : nat) : bool := match lookup q e with Some i => negb (st q i =? 1) | None => false end.
Definition NG (e : list nat) : list nat := filter (ngb e) (seq 0 P).
Definition owner (e : list nat) : nat :=
  nth (N.to_nat (fnv_hash (map (fun v => to_int (Z.of_nat v)) (sort_uniq e)) mod N.of_nat (length (NG e)))) (NG e) 0.
Definition otherb (r : nat) (e : list nat) : bool := existsb (fun q => negb (q =? r)) (NG e).
Definition ownedb (r i : nat) : bool := negb (st r i =? 1) && (owner (gv r i) =? r).
Definition ipeb (r i : nat) : bool := negb (st r i =? 1) && otherb r (gv r i).
Definition nl (r : nat) : nat := countb (ownedb r) (seq 0 (c r)).
Definition npos (r i : nat) : nat := cpos (ownedb r) (c r) i.

Lemma NG_in e q : In q (NG e) <-> q < P /\ ngb e q = true.
Proof using Type. unfold NG. rewrite filter_In, in_seq. split; intros [H1 H2]; (split; [lia|exact H2]). Qed.
Lemma ngb_gv r i : r < P -> i < c r -> ngb (gv r i) r = negb (st r i =? 1).
Proof. intros Hr Hi. unfold ngb. rewrite (proj2 (lookup_some P maps nv inp Hok OK r (gv r i) i Hr) (conj Hi eq_refl)). reflexivity. Qed.
Lemma msg_iff r i s : r < P -> i < c r -> (exists id, In (s, id) (msgs r) /\ look_m r (s, id) = Some i) <-> s <> r /\ In s (NG (gv r i)).
Proof.
  intros Hr Hi. rewrite NG_in. split.
  - intros (id & Hm & El). destruct (msgs_rank r _ Hr Hm) as (H1 & H2 & H3 & H4). cbn [fst snd] in *. split; [exact H2|]. split; [exact H1|].
    unfold look_m, gvm in El. cbn [fst snd] in El. apply (lookup_some P maps nv inp Hok OK) in El as [_ El]; [|exact Hr]. rewrite El, (ngb_gv s id H1 H3). now destruct (Nat.eqb_spec (st s id) 1).
  - intros (N & Hs & Hng). unfold ngb in Hng. destruct (lookup s (gv r i)) as [id|] eqn:El; [|discriminate]. apply (lookup_some P maps nv inp Hok OK) in El as [Hid El]; [|exact Hs].
    exists id. split.
    + apply msgs_in; [exact Hr|]. assert (forallb (holdsb maps r) (gv s id) = true) as Hh by (rewrite El; now apply (gv_held P maps nv inp Hok OK)). split; [|split; [exact Hid|split; [|exact Hh]]].
      * assert (In r (nb s)) as Hrs by (apply (sharer_nb P nbx maps nv inp Hnbx Hok OK s id r Hs Hid); unfold sharers; apply filter_In; split; [apply in_seq; lia|]; rewrite Hh, andb_true_r; now destruct (Nat.eqb_spec r s); [congruence|]).
        apply (nb_graph P nbx maps Hnbx Hok) in Hrs; tauto.
      * intros E. rewrite E in Hng. discriminate.
    + unfold look_m, gvm. cbn [fst snd]. rewrite El. now apply (lookup_some P maps nv inp Hok OK).
Qed.
Lemma otherb_iff r e : otherb r e = true <-> exists s, s <> r /\ In s (NG e).
Proof using Type.
  unfold otherb. rewrite existsb_exists. split; intros (s & H1 & H2); exists s.
  - split; [intros ->; now rewrite Nat.eqb_refl in H2|exact H1].
  - split; [exact H2|now destruct (Nat.eqb_spec s r)].
Qed.
Lemma NG_sorted e : StronglySorted lt (NG e).
Proof using Type. apply SS_filter, SS_lt_seq. Qed.
Lemma owner_in e : NG e <> [] -> In (owner e) (NG e).
Proof using Type.
  intros H. unfold owner. apply nth_In. assert (length (NG e) <> 0) as L by (destruct (NG e); [contradiction|cbn; lia]).
  pose proof (N.mod_lt (fnv_hash (map (fun v => to_int (Z.of_nat v)) (sort_uniq e))) (N.of_nat (length (NG e))) ltac:(lia)). lia.
Qed.
Lemma single_owner r i : r < P -> i < c r -> st r i <> 1 -> otherb r (gv r i) = false -> owner (gv r i) = r.
Proof.
  intros Hr Hi Hst Ho. assert (In r (NG (gv r i))) as Hin by (apply NG_in; split; [exact Hr|]; rewrite ngb_gv by assumption; now destruct (Nat.eqb_spec (st r i) 1)).
  assert (In (owner (gv r i)) (NG (gv r i))) as H by (apply owner_in; intros E; rewrite E in Hin; destruct Hin).
  destruct (Nat.eq_dec (owner (gv r i)) r) as [E|N]; [exact E|]. assert (otherb r (gv r i) = true) by (apply otherb_iff; eauto). congruence.
Qed.

Lemma numbering_ok r : r < P -> numbering P nbx maps nv inp r = Some (map (npos r) (seq 0 (c r)), nl r, map (npos r) (filter (ipeb r) (seq 0 (c r)))).
Proof.
  intros Hr. unfold numbering. rewrite (matched_ok r Hr). cbn [obind]. rewrite (count_is P maps nv inp OK r Hr).
  set (se := concat _). set (sv := concat (map (fun m => match look_m r m with Some i => map (fun v => (i, v)) (gvm m) | None => [] end) (msgs r))).
  assert (Hse : forall i q, In (i, q) se <-> exists m, In m (msgs r) /\ look_m r m = Some i /\ (q = fst m \/ q = r)).
  { intros i q. unfold se. rewrite in_concat. split.
    - intros (l & Hl & Hin). apply in_map_iff in Hl as (m & <- & Hm). destruct (look_m r m) as [j|] eqn:E; [|destruct Hin]. exists m. split; [exact Hm|]. destruct Hin as [Hin|[Hin|[]]]; injection Hin as <- <-; auto.
    - intros (m & Hm & El & Hq). eexists. split; [apply in_map_iff; exists m; split; [reflexivity|exact Hm]|]. rewrite El. destruct Hq as [->| ->]; [now left|right; now left]. }
  assert (Hsv : forall i v, In (i, v) sv <-> exists m, In m (msgs r) /\ look_m r m = Some i /\ In v (gvm m)).
  { intros i q. unfold sv. rewrite in_concat. split.
    - intros (l & Hl & Hin). apply in_map_iff in Hl as (m & <- & Hm). destruct (look_m r m) as [j|] eqn:E; [|destruct Hin]. exists m. split; [exact Hm|]. apply in_map_iff in Hin as (v & Hv & Hin). injection Hv as <- <-. auto.
    - intros (m & Hm & El & Hq). eexists. split; [apply in_map_iff; exists m; split; [reflexivity|exact Hm]|]. rewrite El. apply in_map_iff. eauto. }
  assert (Hlt : forall m i, look_m r m = Some i -> i < c r) by (intros m i E; unfold look_m in E; apply (lookup_some P maps nv inp Hok OK) in E; tauto).
  assert (Aranks : forall i, i < c r -> st r i <> 1 -> slice_at (fst (create_adj_list (isort pair_leb se) (c r))) (snd (create_adj_list (isort pair_leb se) (c r))) i = Some (if otherb r (gv r i) then NG (gv r i) else [])).
  { intros i Hi Hst. destruct (adj_list_ok se (c r)) with (i := i) as (l & El & Hs & Hl); [intros [i' q] H; apply Hse in H as (m & _ & E & _); cbn; eauto|exact Hi|]. rewrite El. f_equal.
    apply SS_lt_eq; [exact Hs|destruct (otherb _ _); [apply NG_sorted|constructor]|]. intros q. rewrite Hl, Hse. destruct (otherb r (gv r i)) eqn:Eo.
    - apply otherb_iff in Eo as (s & Ns & Hsn). split.
      + intros ([s' id] & Hm & Elk & [->| ->]); cbn [fst].
        * apply (proj1 (msg_iff r i s' Hr Hi)). eauto.
        * apply NG_in. split; [exact Hr|]. rewrite ngb_gv by assumption. now destruct (Nat.eqb_spec (st r i) 1).
      + intros Hq. destruct (Nat.eq_dec q r) as [->|N].
        * destruct (proj2 (msg_iff r i s Hr Hi) (conj Ns Hsn)) as (id & Hm & Elk). exists (s, id). auto.
        * destruct (proj2 (msg_iff r i q Hr Hi) (conj N Hq)) as (id & Hm & Elk). exists (q, id). auto.
    - split; [|intros []]. intros ([s id] & Hm & Elk & _). destruct (proj1 (msg_iff r i s Hr Hi) (ex_intro _ id (conj Hm Elk))) as [N Hn]. assert (otherb r (gv r i) = true) by (apply otherb_iff; eauto). congruence. }
  assert (Averts : forall i, i < c r -> otherb r (gv r i) = true -> slice_at (fst (create_adj_list (isort pair_leb sv) (c r))) (snd (create_adj_list (isort pair_leb sv) (c r))) i = Some (sort_uniq (gv r i))).
  { intros i Hi Ho. destruct (adj_list_ok sv (c r)) with (i := i) as (l & El & Hs & Hl); [intros [i' q] H; apply Hsv in H as (m & _ & E & _); cbn; eauto|exact Hi|]. rewrite El. f_equal.
    apply SS_lt_eq; [exact Hs|apply sort_uniq_sorted|]. intros v. rewrite Hl, Hsv, sort_uniq_in. split.
    - intros (m & Hm & Elk & Hv). unfold look_m in Elk. apply (lookup_some P maps nv inp Hok OK) in Elk as [_ ->]; [exact Hv|exact Hr].
    - intros Hv. apply otherb_iff in Ho as (s & Ns & Hsn). destruct (proj2 (msg_iff r i s Hr Hi) (conj Ns Hsn)) as (id & Hm & Elk). exists (s, id). split; [exact Hm|]. split; [exact Elk|]. unfold look_m in Elk. apply (lookup_some P maps nv inp Hok OK) in Elk as [_ <-]; [exact Hv|exact Hr]. }
  clearbody se sv. set (sh := create_adj_list (isort pair_leb se) (c r)) in *. set (shv := create_adj_list (isort pair_leb sv) (c r)) in *.
  destruct (seq_ind (owned_step r (li_ghost (inp r)) sh shv) (fun n s => n <= c r /\ s = (map (fun i => if (i <? n) && ownedb r i then Some (countb (ownedb r) (seq 0 i)) else None) (seq 0 (c r)), countb (ownedb r) (seq 0 n), filter (ipeb r) (seq 0 n))) (c r) (repeat None (c r), 0, [])) as (s & E & _ & ->).
  - split; [lia|]. cbn [seq countb filter]. do 2 f_equal. etransitivity; [|symmetry; apply map_ext; intros i; reflexivity]. cbn. now rewrite map_const, seq_length.
  - intros n s Hn [_ ->]. unfold owned_step. assert (nth_error (li_ghost (inp r)) n = Some (st r n)) as -> by (apply nth_error_nth'; exact Hn). cbn [obind].
    rewrite countb_seq_S. replace (filter (ipeb r) (seq 0 (S n))) with (filter (ipeb r) (seq 0 n) ++ if ipeb r n then [n] else []) by (rewrite seq_S, filter_app; cbn [plus filter]; destruct (ipeb r n); reflexivity).
    assert (Lno : ownedb r n = false -> map (fun i => if (i <? S n) && ownedb r i then Some (countb (ownedb r) (seq 0 i)) else None) (seq 0 (c r)) = map (fun i => if (i <? n) && ownedb r i then Some (countb (ownedb r) (seq 0 i)) else None) (seq 0 (c r))).
    { intros Eo. apply map_ext. intros i. destruct (Nat.eq_dec i n) as [->|N]; [rewrite Eo, !andb_false_r; reflexivity|]. replace (i <? S n) with (i <? n); [reflexivity|]. destruct (Nat.ltb_spec i n), (Nat.ltb_spec i (S n)); try reflexivity; lia. }
    assert (Lyes : ownedb r n = true -> upd (map (fun i => if (i <? n) && ownedb r i then Some (countb (ownedb r) (seq 0 i)) else None) (seq 0 (c r))) n (Some (countb (ownedb r) (seq 0 n))) = Some (map (fun i => if (i <? S n) && ownedb r i then Some (countb (ownedb r) (seq 0 i)) else None) (seq 0 (c r)))).
    { intros Eo. destruct (upd_some (map (fun i => if (i <? n) && ownedb r i then Some (countb (ownedb r) (seq 0 i)) else None) (seq 0 (c r))) n (Some (countb (ownedb r) (seq 0 n)))) as (l' & El'); [now rewrite map_length, seq_length|]. rewrite El'. f_equal.
      apply nth_error_ext. intros k. rewrite (upd_nth _ _ _ k _ El'), !nth_error_map. destruct (Nat.lt_ge_cases k (c r)) as [Hk|Hk].
      - rewrite nth_error_seq by exact Hk. cbn [option_map plus]. destruct (Nat.eqb_spec n k) as [<-|N].
        + destruct (Nat.ltb_spec n (S n)); [|lia]. rewrite Eo. reflexivity.
        + replace (k <? S n) with (k <? n); [reflexivity|]. destruct (Nat.ltb_spec k n), (Nat.ltb_spec k (S n)); try reflexivity; lia.
      - rewrite (proj2 (nth_error_None (seq 0 (c r)) k)) by (rewrite seq_length; lia). destruct (Nat.eqb_spec n k); [lia|reflexivity]. }
    destruct (Nat.eqb_spec (st r n) 1) as [E1|N1].
    + assert (ownedb r n = false) as Eo by (unfold ownedb; rewrite E1; reflexivity). assert (ipeb r n = false) as Ep by (unfold ipeb; rewrite E1; reflexivity).
      eexists. split; [reflexivity|]. split; [lia|]. rewrite (Lno Eo), Eo, Ep, Nat.add_0_r, app_nil_r. reflexivity.
    + rewrite (Aranks n Hn N1). cbn [obind]. destruct (otherb r (gv r n)) eqn:Eo.
      * assert (ipeb r n = true) as Ep by (unfold ipeb; rewrite Eo; now destruct (Nat.eqb_spec (st r n) 1)). rewrite Ep.
        rewrite (Averts n Hn Eo). cbn [obind].
        assert (NG (gv r n) <> []) as HN by (apply otherb_iff in Eo as (s & _ & Hs); intros E0; rewrite E0 in Hs; destruct Hs).
        assert (get_ownership (NG (gv r n)) (map (fun v => to_int (Z.of_nat v)) (sort_uniq (gv r n))) = Some (owner (gv r n))) as EO.
        { unfold get_ownership, owner. apply nth_error_nth'. assert (length (NG (gv r n)) <> 0) as L by (destruct (NG (gv r n)); [contradiction|cbn; lia]).
          pose proof (N.mod_lt (fnv_hash (map (fun v => to_int (Z.of_nat v)) (sort_uniq (gv r n)))) (N.of_nat (length (NG (gv r n)))) ltac:(lia)). lia. }
        destruct (NG (gv r n)) as [|q0 qs] eqn:EN; [contradiction|]. rewrite EO. cbn [obind].
        assert (ownedb r n = (owner (gv r n) =? r)) as EW by (unfold ownedb; now destruct (Nat.eqb_spec (st r n) 1)).
        destruct (owner (gv r n) =? r) eqn:Ew.
        -- rewrite (Lyes EW). cbn [obind]. eexists. split; [reflexivity|]. split; [lia|]. rewrite EW. now rewrite Nat.add_1_r.
        -- eexists. split; [reflexivity|]. split; [lia|]. rewrite (Lno EW), EW, Nat.add_0_r. reflexivity.
      * assert (ipeb r n = false) as Ep by (unfold ipeb; rewrite Eo; apply andb_false_r).
        assert (ownedb r n = true) as EW by (unfold ownedb; rewrite (single_owner r n Hr Hn N1 Eo), Nat.eqb_refl; now destruct (Nat.eqb_spec (st r n) 1)).
        rewrite (Lyes EW). cbn [obind]. eexists. split; [reflexivity|]. split; [lia|]. rewrite EW, Ep, app_nil_r. now rewrite Nat.add_1_r.
  - rewrite E. cbn [obind].
    assert (map (fun i => if (i <? c r) && ownedb r i then Some (countb (ownedb r) (seq 0 i)) else None) (seq 0 (c r)) = map (fun i => if ownedb r i then Some (countb (ownedb r) (seq 0 i)) else None) (seq 0 (c r))) as ->.
    { apply map_ext_in. intros i Hi. apply in_seq in Hi. destruct (Nat.ltb_spec i (c r)); [reflexivity|lia]. }
    rewrite fill_rest_ok. cbn [fst]. change (map _ (seq 0 (c r))) with (map (npos r) (seq 0 (c r))).
    rewrite (omap_map _ (npos r)); [reflexivity|]. intros i Hi. apply filter_In in Hi as [Hi _]. apply in_seq in Hi. rewrite nth_error_map, nth_error_seq by lia. reflexivity.
Qed.
End Li.
