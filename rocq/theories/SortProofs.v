From Verif Require Import Base BaseProofs BucketProofs Sort SortSpec.
From Coq Require Import NArith ZifyBool ZifyNat ZifyN.
Open Scope N_scope.

(** ** The internal notion: stable by a numeric key *)
Definition ssorted {T} (key : T -> N) (l r : list T) : Prop :=
  (forall k, filter (fun x => key x =? k) r = filter (fun x => key x =? k) l) /\
  StronglySorted (fun a b => key a <= key b) r.

Lemma vals_filter {T} (b : T -> nat) (l : list T) k :
  vals k (map (fun c => (b c, c)) l) = filter (fun c => (b c =? k)%nat) l.
Proof.
  unfold vals. induction l as [|x t IH]; cbn; [reflexivity|].
  destruct (b x =? k)%nat; cbn; congruence.
Qed.

(** Distribution into buckets [0..m). *)
Definition distribute {T} (m : nat) (b : T -> nat) (l : list T) : list T :=
  concat (map (fun k => filter (fun c => (b c =? k)%nat) l) (seq 0 m)).

Lemma in_distribute {T} m (b : T -> nat) l x :
  In x (distribute m b l) <-> In x l /\ (b x < m)%nat.
Proof.
  unfold distribute. rewrite in_concat. split.
  - intros (f & Hf & Hx). apply in_map_iff in Hf as (k & <- & Hk). apply in_seq in Hk.
    apply filter_In in Hx as (Hx & E). apply Nat.eqb_eq in E. subst. split; [exact Hx|lia].
  - intros (Hx & Hb). eexists; split; [apply in_map_iff; exists (b x); split; [reflexivity|]|].
    + apply in_seq; lia.
    + apply filter_In. split; [exact Hx|apply Nat.eqb_refl].
Qed.

Lemma filter_distribute {T} m (b : T -> nat) l (p : T -> bool) k :
  (k < m)%nat -> (forall x, In x l -> p x = true -> b x = k) ->
  filter p (distribute m b l) = filter p l.
Proof.
  intros Hk Hp. unfold distribute. rewrite filter_concat, map_map.
  assert (G : forall a n, (a <= k < a + n)%nat ->
     concat (map (fun j => filter p (filter (fun c => (b c =? j)%nat) l)) (seq a n)) = filter p l).
  { assert (G0 : forall a n, (k < a \/ a + n <= k)%nat ->
     concat (map (fun j => filter p (filter (fun c => (b c =? j)%nat) l)) (seq a n)) = []).
    { intros a n; revert a; induction n as [|n IH]; intros a H; cbn [seq map concat]; [reflexivity|].
      rewrite IH by lia. rewrite app_nil_r, filter_filter. apply filter_none. intros x Hx.
      destruct (p x) eqn:Ep; [|apply andb_false_r]. rewrite (Hp x Hx Ep).
      destruct (Nat.eqb_spec k a); [lia|reflexivity]. }
    intros a n; revert a; induction n as [|n IH]; intros a H; [lia|]. cbn [seq map concat].
    destruct (Nat.eq_dec a k) as [->|N].
    - rewrite G0 by lia. rewrite app_nil_r, filter_filter. apply filter_ext_in. intros x Hx.
      destruct (p x) eqn:Ep; [|apply andb_false_r]. now rewrite (Hp x Hx Ep), Nat.eqb_refl.
    - rewrite IH by lia. rewrite filter_filter, filter_none; [reflexivity|]. intros x Hx.
      destruct (p x) eqn:Ep; [|apply andb_false_r]. rewrite (Hp x Hx Ep).
      destruct (Nat.eqb_spec k a); [lia|reflexivity]. }
  apply (G 0%nat m). lia.
Qed.

Lemma distribute_sorted {T} m (b : T -> nat) l (R : T -> T -> Prop) :
  StronglySorted (fun x y => b x = b y -> R x y) l ->
  (forall x y, (b x < b y)%nat -> R x y) ->
  StronglySorted R (distribute m b l).
Proof.
  intros Hs Hb. unfold distribute.
  assert (G : forall n a, StronglySorted R (concat (map (fun k => filter (fun c => (b c =? k)%nat) l) (seq a n)))).
  { induction n as [|n IH]; intro a; cbn [seq map concat]; [constructor|].
    apply SS_app; [|apply IH|].
    - eapply SS_impl_in; [|apply SS_filter; exact Hs]. cbn. intros x y Hx Hy H. apply H.
      apply filter_In in Hx as (_ & Hx). apply filter_In in Hy as (_ & Hy).
      apply Nat.eqb_eq in Hx. apply Nat.eqb_eq in Hy. congruence.
    - intros x y Hx Hy. apply filter_In in Hx as (_ & Hx). apply Nat.eqb_eq in Hx.
      apply in_concat in Hy as (f & Hf & Hy). apply in_map_iff in Hf as (k & <- & Hk).
      apply in_seq in Hk. apply filter_In in Hy as (_ & Hy). apply Nat.eqb_eq in Hy.
      apply Hb. lia. }
  apply G.
Qed.

(** One more digit. *)
Lemma ssorted_step {T} (P : N) m (lo hi : T -> N) (l r : list T) :
  (forall x, lo x < P) -> (forall x, In x l -> hi x < N.of_nat m) ->
  (forall x, In x r <-> In x l) ->
  ssorted lo l r ->
  ssorted (fun x => hi x * P + lo x) l (distribute m (fun x => N.to_nat (hi x)) r).
Proof.
  intros Hlo Hhi Hin (Hst & Hso). split.
  - intro k.
    destruct (N.lt_ge_cases (k / P) (N.of_nat m)) as [Hk|Hk].
    + rewrite (filter_distribute _ _ _ _ (N.to_nat (k / P))).
      * rewrite (filter_ext _ (fun x => (lo x =? k mod P) && (hi x =? k / P))).
        2:{ intro x. pose proof (Hlo x).
            destruct (N.eqb_spec (hi x * P + lo x) k) as [<-|Ne].
            - rewrite (N.add_comm (hi x * P)), N.mod_add, N.div_add, N.mod_small, N.div_small by lia.
              rewrite !N.eqb_refl. reflexivity.
            - symmetry. apply andb_false_iff.
              destruct (N.eqb_spec (lo x) (k mod P)) as [E1|]; [|now left].
              destruct (N.eqb_spec (hi x) (k / P)) as [E2|]; [|now right].
              exfalso. apply Ne. rewrite E1, E2. rewrite (N.div_mod k P) at 3 by lia. lia. }
        rewrite <- (filter_filter (fun x => hi x =? k / P) (fun x => lo x =? k mod P)), Hst, filter_filter.
        apply filter_ext. intro x. pose proof (Hlo x).
        destruct (N.eqb_spec (hi x * P + lo x) k) as [<-|Ne].
        -- rewrite (N.add_comm (hi x * P)), N.mod_add, N.div_add, N.mod_small, N.div_small by lia.
           rewrite !N.eqb_refl. reflexivity.
        -- apply andb_false_iff.
           destruct (N.eqb_spec (lo x) (k mod P)) as [E1|]; [|now left].
           destruct (N.eqb_spec (hi x) (k / P)) as [E2|]; [|now right].
           exfalso. apply Ne. rewrite E1, E2. rewrite (N.div_mod k P) at 3 by lia. lia.
      * lia.
      * intros x _ E. apply N.eqb_eq in E. rewrite <- E. pose proof (Hlo x).
        rewrite N.add_comm, N.div_add, N.div_small by lia. f_equal.
    + rewrite !filter_none; [reflexivity| |].
      * intros x Hx. apply N.eqb_neq. intro E. specialize (Hhi _ Hx). pose proof (Hlo x).
        rewrite <- E, N.add_comm, N.div_add, N.div_small in Hk by lia. lia.
      * intros x Hx. apply in_distribute in Hx as (Hx & _). apply Hin in Hx.
        apply N.eqb_neq. intro E. specialize (Hhi _ Hx). pose proof (Hlo x).
        rewrite <- E, N.add_comm, N.div_add, N.div_small in Hk by lia. lia.
  - apply distribute_sorted.
    + eapply SS_impl_in; [|exact Hso]. cbn. intros x y _ _ H E. apply N2Nat.inj in E. rewrite E. lia.
    + intros x y H. pose proof (Hlo x). pose proof (Hlo y).
      assert (hi x + 1 <= hi y) by lia. nia.
Qed.

Lemma in_of_filters {T} (key : T -> N) (l r : list T) :
  (forall k, filter (fun x => key x =? k) r = filter (fun x => key x =? k) l) ->
  forall x, In x r <-> In x l.
Proof.
  intros H x. specialize (H (key x)). split; intro Hx.
  - assert (In x (filter (fun y => key y =? key x) r)) as Hf by (apply filter_In; now rewrite N.eqb_refl).
    rewrite H in Hf. now apply filter_In in Hf.
  - assert (In x (filter (fun y => key y =? key x) l)) as Hf by (apply filter_In; now rewrite N.eqb_refl).
    rewrite <- H in Hf. now apply filter_In in Hf.
Qed.

Lemma perm_of_filters {T} (key : T -> N) (l r : list T) :
  (forall k, filter (fun x => key x =? k) r = filter (fun x => key x =? k) l) -> Permutation l r.
Proof.
  revert r; induction l as [|x t IH]; intros r H.
  - destruct r as [|y r]; [constructor|]. exfalso.
    assert (In y (@nil T)) as Hn; [|destruct Hn]. apply (in_of_filters key [] (y :: r) H). now left.
  - (* split r at the first element with key [key x] *)
    assert (Hx := H (key x)). cbn in Hx. rewrite N.eqb_refl in Hx.
    assert (Hsplit : forall (p : T -> bool) r y f, filter p r = y :: f ->
      exists r1 r2, r = r1 ++ y :: r2 /\ filter p r1 = [] /\ filter p r2 = f /\ p y = true).
    { clear. intros p r; induction r as [|z r IH]; intros y f E; cbn in E; [discriminate|].
      destruct (p z) eqn:Ep.
      - injection E as -> <-. now exists [], r.
      - destruct (IH _ _ E) as (r1 & r2 & -> & E1 & E2 & E3). exists (z :: r1), r2. cbn. now rewrite Ep. }
    destruct (Hsplit _ _ _ _ Hx) as (r1 & r2 & -> & E1 & E2 & _).
    apply Permutation_cons_app. apply IH. intro k. specialize (H k). cbn in H.
    rewrite filter_app in *. cbn in H.
    destruct (N.eqb_spec (key x) k) as [Ek|Ne].
    + subst k. rewrite E1 in H |- *. cbn in *. now injection H.
    + exact H.
Qed.

Lemma ssorted_stable {T} (key : T -> N) l r :
  ssorted key l r -> stable_sort_of N.le key l r.
Proof.
  intros (H1 & H2). split; [now apply perm_of_filters with (key := key)|]. split; [exact H2|].
  intros p Hp. pose proof (in_of_filters key l r H1) as Hin.
  destruct (existsb p l) eqn:Ex.
  - apply existsb_exists in Ex as (x & Hxl & Hx).
    assert (G : forall m, (forall y, In y m -> In y l) ->
                 filter p m = filter p (filter (fun y => key y =? key x) m)).
    { intros m Hm. rewrite filter_filter. apply filter_ext_in. intros y Hy.
      destruct (p y) eqn:Ey; [|symmetry; apply andb_false_r].
      rewrite (Hp y x (Hm y Hy) Hxl Ey Hx), N.eqb_refl. reflexivity. }
    rewrite (G r), (G l), H1; [reflexivity|auto|apply Hin].
  - assert (E : forall y, In y l -> p y = false).
    { intros y Hy. destruct (p y) eqn:E; [|reflexivity]. rewrite <- Ex. symmetry. apply existsb_exists. eauto. }
    rewrite !filter_none; [reflexivity|exact E|]. intros y Hy. apply E, Hin, Hy.
Qed.

(** ** The counting pass in w-bit counters *)

Lemma map_of_nat_nth (l : list nat) k : nth_error (map N.of_nat l) k = option_map N.of_nat (nth_error l k).
Proof. apply nth_error_map_some. Qed.

Lemma placeN_sim {T} w (kvs : list (nat * T)) pos data pos' data' :
  N.of_nat (length data) < 2 ^ w ->
  ofold place kvs (pos, data) = Some (pos', data') ->
  ofold (placeN w) kvs (map N.of_nat pos, data) = Some (map N.of_nat pos', data').
Proof.
  intro Hw. revert pos data Hw; induction kvs as [|kv t IH]; intros pos data Hw H.
  - cbn in *. now injection H as <- <-.
  - cbn [ofold] in *. apply obind_some in H as ((p1, d1) & H1 & H2).
    unfold place in H1. apply obind_some in H1 as (p & Hp & H1).
    apply obind_some in H1 as (d' & Hd & H1). apply obind_some in H1 as (q & Hq & H1).
    injection H1 as -> ->.
    unfold placeN at 1. rewrite map_of_nat_nth, Hp. cbn [option_map obind].
    rewrite Nat2N.id, Hd. cbn [obind].
    pose proof (upd_bound _ _ _ _ Hd) as Hb.
    unfold wrapN. rewrite N.mod_small by lia.
    replace (N.of_nat p + 1) with (N.of_nat (S p)) by lia.
    rewrite (upd_map N.of_nat _ _ _ _ Hq). cbn [obind].
    apply IH; [|exact H2]. rewrite (upd_length _ _ _ _ Hd). exact Hw.
Qed.

Lemma count_bounds l keys l' : ofold incr keys l = Some l' ->
  length l' = length l /\
  (forall k c c', nth_error l k = Some c -> nth_error l' k = Some c' -> (c <= c' <= c + length keys)%nat).
Proof.
  revert l; induction keys as [|a t IH]; intros l H; cbn in H.
  - injection H as <-. split; [reflexivity|]. intros k c c' Hc Hc'. cbn. rewrite Hc in Hc'. injection Hc' as <-. lia.
  - apply obind_some in H as (l1 & H1 & H2). destruct (IH _ H2) as (Hl & Hb).
    unfold incr in H1. split; [rewrite Hl; eapply modify_length; eauto|].
    intros k c c' Hc Hc'. pose proof (modify_nth _ _ _ k _ H1) as E. rewrite Hc in E.
    destruct (a =? k)%nat; cbn in E.
    + specialize (Hb k (S c) c' E Hc'). cbn. lia.
    + specialize (Hb k c c' E Hc'). cbn. lia.
Qed.

Lemma incrN_sim w keys l l' M :
  (forall k c, nth_error l k = Some c -> (c + length keys <= M)%nat) -> N.of_nat M < 2 ^ w ->
  ofold incr keys l = Some l' ->
  ofold (incrN w) keys (map N.of_nat l) = Some (map N.of_nat l').
Proof.
  intros Hb Hw. revert l Hb; induction keys as [|a t IH]; intros l Hb H; cbn in *.
  - now injection H as <-.
  - apply obind_some in H as (l1 & H1 & H2). unfold incr, modify in H1.
    apply obind_some in H1 as (c & Hc & H1).
    unfold incrN at 1, modify. rewrite map_of_nat_nth, Hc. cbn [option_map obind].
    pose proof (Hb _ _ Hc).
    unfold wrapN. rewrite N.mod_small by lia.
    replace (N.of_nat c + 1) with (N.of_nat (S c)) by lia.
    rewrite (upd_map N.of_nat _ _ _ _ H1). cbn [obind].
    apply IH; [|exact H2]. intros k c' Hc'. rewrite (upd_nth _ _ _ k _ H1) in Hc'.
    destruct (Nat.eqb_spec a k); [injection Hc' as <-; lia|]. specialize (Hb _ _ Hc'). lia.
Qed.

Lemma exscanN_sim w a l :
  N.of_nat (a + lsum l) < 2 ^ w ->
  exscanN w (N.of_nat a) (map N.of_nat l) = map N.of_nat (removelast (psums_from a l)).
Proof.
  revert a; induction l as [|x t IH]; intros a H; [reflexivity|].
  rewrite lsum_cons in H. cbn [map exscanN psums_from].
  unfold wrapN. rewrite N.mod_small by lia.
  replace (N.of_nat a + N.of_nat x) with (N.of_nat (a + x)) by lia.
  rewrite IH by lia. destruct (psums_from (a + x) t) eqn:E; [destruct t; discriminate|].
  cbn [removelast map]. reflexivity.
Qed.

Lemma count_keys_sim w nb (keys : list nat) :
  Forall (fun k => (k < nb)%nat) keys -> N.of_nat (length keys) < 2 ^ w ->
  ofold (incrN w) keys (repeat 0 nb)
  = Some (map N.of_nat (map (fun k => countb (fun x => (x =? k)%nat) keys) (seq 0 nb))).
Proof.
  intros H Hw. pose proof (count_keys_spec nb keys H) as E. unfold count_keys in E.
  replace (repeat 0 nb) with (map N.of_nat (repeat 0%nat nb)).
  2:{ clear. induction nb as [|n IH]; cbn; [reflexivity|]. now rewrite IH. }
  eapply incrN_sim with (M := length keys); [|exact Hw|exact E].
  intros k c Hc. apply nth_error_In in Hc. apply repeat_spec in Hc. lia.
Qed.

(** The complete pass: histogram, scan, distribution. *)
Lemma pass_distribute {T} w nb (b : T -> nat) (cur next : list T) :
  (forall x, In x cur -> (b x < nb)%nat) -> N.of_nat (length cur) < 2 ^ w ->
  length next = length cur ->
  exists off,
  ofold (fun st c => placeN w st (b c, c)) cur
    (exscanN w 0 (map N.of_nat (map (fun k => countb (fun x => (x =? k)%nat) (map b cur)) (seq 0 nb))), next)
  = Some (off, distribute nb b cur).
Proof.
  intros Hb Hw Hl.
  set (kvs := map (fun c => (b c, c)) cur).
  assert (HF : Forall (fun kv => (fst kv < nb)%nat) kvs).
  { apply Forall_forall. intros kv H. apply in_map_iff in H as (c & <- & H). cbn. auto. }
  assert (Hmf : map fst kvs = map b cur) by (unfold kvs; rewrite map_map; reflexivity).
  rewrite <- Hmf, map_vals_counts. set (cnt := map (fun k => length (vals k kvs)) (seq 0 nb)).
  assert (Hsum : lsum cnt = length cur).
  { unfold cnt. rewrite <- (map_length (fun c => (b c, c)) cur). fold kvs.
    rewrite <- (vals_map_seq_total nb _ HF), <- lsum_concat_length, map_map. reflexivity. }
  change 0 with (N.of_nat 0). rewrite exscanN_sim by (rewrite Hsum; exact Hw).
  fold (psums cnt).
  destruct (place_all nb kvs (removelast (psums cnt)) next HF) as (pos' & HP & _).
  { intros k Hk. rewrite removelast_nth.
    - unfold cnt. apply psums_offk. lia.
    - rewrite psums_length. unfold cnt. rewrite map_length, seq_length. lia. }
  { unfold kvs. rewrite map_length. exact Hl. }
  exists (map N.of_nat pos').
  replace (distribute nb b cur) with (concat (map (fun k => vals k kvs) (seq 0 nb))).
  2:{ unfold distribute. f_equal. apply map_ext. intro k. apply vals_filter. }
  apply placeN_sim with (w := w) in HP; [|rewrite Hl; exact Hw].
  unfold kvs in HP. rewrite ofold_map in HP. exact HP.
Qed.

(** ** Bits *)

Lemma land_mod_pow2 v m w : v < 2 ^ w -> N.land v (m mod 2 ^ w) = N.land v m.
Proof.
  intro H. rewrite <- (N.land_ones m w), (N.land_comm m), N.land_assoc, N.land_ones, N.mod_small by exact H.
  reflexivity.
Qed.

Lemma digit_bits v s bits w : v < 2 ^ w ->
  N.shiftr (N.land v (((2 ^ bits - 1) * 2 ^ s) mod 2 ^ w)) s = (v / 2 ^ s) mod 2 ^ bits.
Proof.
  intro H. rewrite land_mod_pow2 by exact H.
  replace (2 ^ bits - 1) with (N.ones bits) by (now rewrite N.ones_equiv, N.sub_1_r).
  rewrite <- N.shiftl_mul_pow2, N.shiftr_land, N.shiftr_shiftl_l by lia.
  rewrite N.sub_diag, N.shiftl_0_r, N.land_ones, N.shiftr_div_pow2. reflexivity.
Qed.

Definition top (w : N) : N := N.shiftl 1 (w - 1).

Lemma top_pow w : top w = 2 ^ (w - 1).
Proof. unfold top. rewrite N.shiftl_mul_pow2. lia. Qed.

Lemma pow_split w : 0 < w -> 2 ^ w = 2 * 2 ^ (w - 1).
Proof. intro H. replace w with (N.succ (w - 1)) at 1 by lia. now rewrite N.pow_succ_r'. Qed.

Lemma testbit_1 i : 0 < i -> N.testbit 1 i = false.
Proof. intro H. replace 1 with (N.ones 1) by reflexivity. now apply N.ones_spec_high; lia. Qed.

Lemma land_top w v : 0 < w -> v < 2 ^ w ->
  negb (N.land v (top w) =? 0) = (2 ^ (w - 1) <=? v).
Proof.
  intros Hw Hv. unfold top.
  assert (E : N.land v (N.shiftl 1 (w - 1)) = (v / 2 ^ (w - 1)) mod 2 * 2 ^ (w - 1)).
  { apply N.bits_inj. intro i. rewrite N.land_spec.
    rewrite <- N.shiftl_mul_pow2.
    destruct (N.lt_ge_cases i (w - 1)) as [L|L].
    - rewrite !N.shiftl_spec_low by exact L. apply andb_false_r.
    - rewrite !N.shiftl_spec_high' by exact L.
      change 2 with (2 ^ 1) at 2. rewrite <- N.land_ones, N.land_spec, <- N.shiftr_div_pow2, N.shiftr_spec'.
      replace (i - (w - 1) + (w - 1)) with i by lia.
      destruct (N.eq_dec (i - (w - 1)) 0) as [->|Ne]; [reflexivity|].
      rewrite N.ones_spec_high by lia.
      replace (N.testbit 1 (i - (w - 1))) with false; [now rewrite !andb_false_r|].
      symmetry. apply testbit_1. lia. }
  rewrite E. pose proof (pow_split w Hw) as HP.
  assert (0 < 2 ^ (w - 1)) by (apply N.neq_0_lt_0, N.pow_nonzero; lia).
  assert (Hq : v / 2 ^ (w - 1) < 2) by (apply N.div_lt_upper_bound; lia).
  rewrite N.mod_small by exact Hq.
  destruct (N.leb_spec (2 ^ (w - 1)) v) as [L|L].
  - assert (v / 2 ^ (w - 1) = 1).
    { apply N.le_antisymm; [lia|]. apply N.div_le_lower_bound; lia. }
    destruct (N.eqb_spec (v / 2 ^ (w - 1) * 2 ^ (w - 1)) 0); [nia|reflexivity].
  - rewrite N.div_small by exact L. reflexivity.
Qed.

Lemma ldiff_top w v : 0 < w -> 2 ^ (w - 1) <= v < 2 ^ w -> N.ldiff v (top w) = v - 2 ^ (w - 1).
Proof.
  intros Hw Hv. rewrite <- top_pow. unfold top. symmetry. apply N.sub_nocarry_ldiff.
  apply N.bits_inj_0. intro i. rewrite N.ldiff_spec.
  destruct (N.eq_dec i (w - 1)) as [->|Ne].
  - replace (N.testbit v (w - 1)) with true; [apply andb_false_r|].
    rewrite N.testbit_eqb. pose proof (pow_split w Hw).
    assert (v / 2 ^ (w - 1) = 1).
    { apply N.le_antisymm.
      - apply N.lt_succ_r. apply N.div_lt_upper_bound; lia.
      - apply N.div_le_lower_bound; lia. }
    rewrite H0. reflexivity.
  - replace (N.testbit (N.shiftl 1 (w - 1)) i) with false; [reflexivity|].
    destruct (N.lt_ge_cases i (w - 1)) as [L|L].
    + now rewrite N.shiftl_spec_low.
    + rewrite N.shiftl_spec_high' by exact L. symmetry. apply testbit_1. lia.
Qed.

(** ** Number of passes *)
Lemma num_its_spec bits : 0 < bits -> forall fuel m,
  m < 2 ^ N.of_nat fuel ->
  exists its, num_its fuel bits m = Some its /\ m < 2 ^ (bits * N.of_nat its)
              /\ (its = 0%nat \/ 2 ^ (bits * N.of_nat (pred its)) <= m).
Proof.
  intro Hb. induction fuel as [|f IH]; intros m Hm.
  - cbn in Hm. replace m with 0 by lia. cbn. exists 0%nat. rewrite N.mul_0_r. cbn. auto with arith.
    split; [reflexivity|]. split; [lia|now left].
  - cbn [num_its]. destruct (N.eqb_spec m 0) as [->|Hm0].
    + exists 0%nat. rewrite N.mul_0_r. cbn. split; [reflexivity|]. split; [lia|now left].
    + destruct (IH (N.shiftr m bits)) as (its & -> & H1 & H2).
      { rewrite N.shiftr_div_pow2. apply N.div_lt_upper_bound; [apply N.pow_nonzero; lia|].
        rewrite <- N.pow_add_r. eapply N.lt_le_trans; [exact Hm|]. apply N.pow_le_mono_r; lia. }
      rewrite N.shiftr_div_pow2 in *. cbn [obind]. exists (S its).
      assert (Hp : 2 ^ bits <> 0) by (apply N.pow_nonzero; lia).
      split; [reflexivity|]. split.
      * replace (bits * N.of_nat (S its)) with (bits + bits * N.of_nat its) by lia.
        rewrite N.pow_add_r. rewrite (N.div_mod m (2 ^ bits)) by exact Hp.
        pose proof (N.mod_lt m (2 ^ bits) Hp). nia.
      * right. cbn [pred]. destruct H2 as [->|H2].
        -- rewrite N.mul_0_r. cbn. lia.
        -- destruct its as [|its]; [rewrite N.mul_0_r; cbn; lia|]. cbn [pred] in H2.
           replace (bits * N.of_nat (S its)) with (bits + bits * N.of_nat its) by lia.
           rewrite N.pow_add_r. rewrite (N.div_mod m (2 ^ bits)) by exact Hp. nia.
Qed.

(** ** The first scan *)
Lemma scan1_spec {T} w mask nb (proj : T -> N) (l : list T) :
  (forall x, In x l -> proj x < 2 ^ w) -> 0 < w ->
  (forall x, In x l -> (N.to_nat (N.land (proj x) mask) < nb)%nat) -> N.of_nat (length l) < 2 ^ w ->
  exists mx al,
    ofold (scan1 w mask proj) l (0, true, repeat 0 nb)
    = Some (mx, al, map N.of_nat (map (fun k => countb (fun x => (x =? k)%nat)
                       (map (fun x => N.to_nat (N.land (proj x) mask)) l)) (seq 0 nb)))
    /\ (forall x, In x l -> proj x <= mx)
    /\ (l <> [] -> exists x, In x l /\ mx = proj x)
    /\ (al = true <-> forall x, In x l -> 2 ^ (w - 1) <= proj x).
Proof.
  intros Hv Hw0 Hm Hlen.
  assert (G : forall l mx al c c',
     (forall x, In x l -> proj x < 2 ^ w) ->
     ofold (incrN w) (map (fun x => N.to_nat (N.land (proj x) mask)) l) c = Some c' ->
     ofold (scan1 w mask proj) l (mx, al, c)
     = Some (fold_left N.max (map proj l) mx,
             al && forallb (fun x => 2 ^ (w - 1) <=? proj x) l, c')).
  { clear -Hw0. induction l as [|x t IH]; intros mx al c c' Hv H; cbn [ofold map fold_left forallb] in *.
    - injection H as <-. now rewrite andb_true_r.
    - apply obind_some in H as (c1 & H1 & H2). unfold scan1 at 1. rewrite H1. cbn [obind].
      fold (top w). rewrite land_top by (auto with datatypes). rewrite (IH _ _ _ c'); auto with datatypes.
      now rewrite andb_assoc. }
  eexists _, _. split; [|split; [|split]].
  - apply G; [exact Hv|]. apply count_keys_sim.
    + apply Forall_forall. intros k Hk. apply in_map_iff in Hk as (x & <- & Hx). auto.
    + now rewrite map_length.
  - intros x Hx. apply (in_map proj) in Hx. clear -Hx. revert Hx. generalize (map proj l) 0.
    assert (G : forall l a, a <= fold_left N.max l a).
    { induction l0 as [|y t IH]; intro a; cbn; [lia|]. specialize (IH (N.max a y)). lia. }
    induction l0 as [|y t IH]; intros n Hx; [destruct Hx|]. cbn.
    destruct Hx as [->|Hx]; [|auto]. specialize (G t (N.max n (proj x))). lia.
  - intro Hne. destruct l as [|x t]; [contradiction|]. clear.
    cbn. replace (N.max 0 (proj x)) with (proj x) by lia.
    assert (G : forall l a, fold_left N.max (map proj l) a = a \/
              exists x, In x l /\ fold_left N.max (map proj l) a = proj x).
    { induction l as [|y t' IH]; intro a; cbn; [now left|].
      destruct (IH (N.max a (proj y))) as [E|(z & Hz & E)].
      - rewrite E. destruct (N.max_spec a (proj y)) as [(_ & ->)|(_ & ->)]; [right|left; reflexivity].
        exists y. split; [now left|reflexivity].
      - right. exists z. split; [now right|exact E]. }
    destruct (G t (proj x)) as [E|(z & Hz & E)].
    + exists x. split; [now left|exact E].
    + exists z. split; [now right|exact E].
  - cbn [andb]. rewrite forallb_forall. split; intros H x Hx.
    + apply N.leb_le. auto.
    + apply N.leb_le. auto.
Qed.

(** ** The whole sort *)

Definition low (proj : N) (s : N) : N := proj mod 2 ^ s.

Lemma ssorted_refl {T} (l : list T) : ssorted (fun _ => 0) l l.
Proof.
  split; [reflexivity|]. induction l as [|x t IH]; constructor; [exact IH|].
  apply Forall_forall. intros; lia.
Qed.

Lemma ssorted_ext {T} (k1 k2 : T -> N) l r :
  (forall x, k1 x = k2 x) -> ssorted k1 l r -> ssorted k2 l r.
Proof.
  intros E (H1 & H2). split.
  - intro k. rewrite !(filter_ext (fun x => k2 x =? k) (fun x => k1 x =? k)) by (intro; now rewrite E). apply H1.
  - eapply SS_impl_in; [|exact H2]. cbn. intros a b _ _. now rewrite !E.
Qed.

Lemma ssorted_length {T} (key : T -> N) l r : ssorted key l r -> length r = length l.
Proof. intros (H & _). apply Permutation_length. apply Permutation_sym. eapply perm_of_filters; eauto. Qed.

Lemma low_step v s bits : (v / 2 ^ s) mod 2 ^ bits * 2 ^ s + low v s = low v (s + bits).
Proof.
  unfold low. rewrite N.pow_add_r, N.mod_mul_r by (apply N.pow_nonzero; lia).
  lia.
Qed.

Definition cur_of {T} (st : rstate T) : list T :=
  if r_flip st then snd (r_mem st) else fst (r_mem st).

Lemma radix_pass_spec {T} w bits (proj : T -> N) range its st i :
  0 < bits -> bits < w ->
  (forall x, In x range -> proj x < 2 ^ w) -> N.of_nat (length range) < 2 ^ w ->
  bits * N.of_nat i < w ->
  let nb := N.to_nat (2 ^ bits) in
  length (fst (r_mem st)) = length range -> length (snd (r_mem st)) = length range ->
  ssorted (fun x => low (proj x) (bits * N.of_nat i)) range (cur_of st) ->
  r_mask st = ((2 ^ bits - 1) * 2 ^ (bits * N.of_nat i)) mod 2 ^ w ->
  r_moff st = bits * N.of_nat i ->
  (i = 0%nat -> r_counter st = map N.of_nat (map (fun k => countb (fun x => (x =? k)%nat)
       (map (fun x => N.to_nat (N.land (proj x) (r_mask st))) (cur_of st))) (seq 0 nb))) ->
  r_flip st = Nat.odd i ->
  (S i <= its)%nat ->
  exists st', radix_pass w bits nb proj st i = Some st' /\
    length (fst (r_mem st')) = length range /\ length (snd (r_mem st')) = length range /\
    ssorted (fun x => low (proj x) (bits * N.of_nat (S i))) range (cur_of st') /\
    (bits * N.of_nat (S i) < 2 ^ w ->
     r_mask st' = ((2 ^ bits - 1) * 2 ^ (bits * N.of_nat (S i))) mod 2 ^ w /\
     r_moff st' = bits * N.of_nat (S i)) /\
    r_flip st' = Nat.odd (S i).
Proof.
  intros Hb Hbw Hv Hn Hi nb L1 L2 Hss Hmask Hmoff Hc0 Hflip Hits.
  unfold radix_pass. cbv zeta. fold (cur_of st).
  set (s := bits * N.of_nat i) in *.
  set (bucket := bucket_of proj (r_mask st) (r_moff st)).
  set (hi := fun c => (proj c / 2 ^ s) mod 2 ^ bits).
  assert (Hin : forall x, In x (cur_of st) <-> In x range) by (eapply in_of_filters; apply Hss).
  assert (Hbucket : forall x, In x (cur_of st) -> bucket x = N.to_nat (hi x)).
  { intros x Hx. unfold bucket, bucket_of, hi. rewrite Hmask, Hmoff, digit_bits by (apply Hv, Hin, Hx). reflexivity. }
  assert (Hp : 2 ^ bits <> 0) by (apply N.pow_nonzero; lia).
  assert (Hnb : forall x, In x (cur_of st) -> (bucket x < nb)%nat).
  { intros x Hx. rewrite Hbucket by exact Hx. unfold hi, nb.
    pose proof (N.mod_lt (proj x / 2 ^ s) (2 ^ bits) Hp). lia. }
  assert (Hlen : length (cur_of st) = length range) by (eapply ssorted_length; eauto).
  assert (Hcnt : (if (0 <? i)%nat
              then ofold (fun cn c => incrN w cn (bucket c)) (cur_of st) (repeat 0 nb)
              else Some (r_counter st))
     = Some (map N.of_nat (map (fun k => countb (fun x => (x =? k)%nat) (map bucket (cur_of st))) (seq 0 nb)))).
  { destruct (Nat.ltb_spec 0 i).
    - rewrite <- (ofold_map (incrN w) bucket). apply count_keys_sim.
      + apply Forall_forall. intros k Hk. apply in_map_iff in Hk as (x & <- & Hx). auto.
      + rewrite map_length, Hlen. exact Hn.
    - rewrite Hc0 by lia. do 2 f_equal. apply map_ext. intro k. f_equal.
      apply map_ext_in. intros x Hx. unfold bucket, bucket_of. rewrite Hmoff.
      replace s with 0 by (unfold s; lia). now rewrite N.shiftr_0_r. }
  rewrite Hcnt. cbn [obind].
  set (next := if r_flip st then fst (r_mem st) else snd (r_mem st)).
  destruct (pass_distribute w nb bucket (cur_of st) next) as (off & HP).
  { exact Hnb. } { rewrite Hlen. exact Hn. }
  { rewrite Hlen. unfold next. destruct (r_flip st); assumption. }
  rewrite HP. cbn [obind]. eexists; split; [reflexivity|].
  set (nx := distribute nb bucket (cur_of st)).
  assert (Hss' : ssorted (fun x => low (proj x) (bits * N.of_nat (S i))) range nx).
  { unfold nx. replace (distribute nb bucket (cur_of st))
      with (distribute nb (fun x => N.to_nat (hi x)) (cur_of st)).
    2:{ unfold distribute. f_equal. apply map_ext. intro k. apply filter_ext_in. intros x Hx.
        now rewrite Hbucket. }
    eapply ssorted_ext; [|apply (ssorted_step (2 ^ s) nb (fun x => low (proj x) s) hi range (cur_of st))].
    - intro x. cbn. unfold hi. rewrite low_step. f_equal. unfold s. lia.
    - intro x. apply N.mod_lt, N.pow_nonzero. lia.
    - intros x _. unfold nb, hi. rewrite N2Nat.id. apply N.mod_lt. exact Hp.
    - exact Hin.
    - exact Hss. }
  assert (Lnx : length nx = length range) by (eapply ssorted_length; eauto).
  cbn [r_mem r_flip r_mask r_moff].
  repeat split.
  - destruct (r_flip st); cbn; [exact Lnx|exact L1].
  - destruct (r_flip st); cbn; [exact L2|exact Lnx].
  - unfold cur_of. cbn. destruct (r_flip st); cbn; apply Hss'.
  - unfold cur_of. cbn. destruct (r_flip st); cbn; apply Hss'.
  - rewrite Hmask. unfold wrapN. rewrite N.shiftl_mul_pow2, N.mul_mod_idemp_l by (apply N.pow_nonzero; lia).
    f_equal. replace (bits * N.of_nat (S i)) with (s + bits) by (unfold s; lia).
    rewrite N.pow_add_r. lia.
  - rewrite Hmoff. unfold wrapN. rewrite N.mod_small by (unfold s; lia). unfold s. lia.
  - rewrite Hflip, Nat.odd_succ, <- Nat.negb_odd. reflexivity.
Qed.

Lemma lt_pow2 n : n < 2 ^ n.
Proof. apply N.pow_gt_lin_r. lia. Qed.

Lemma radix_passes {T} w bits (proj : T -> N) range its st0 :
  0 < bits -> bits < w -> (forall x, In x range -> proj x < 2 ^ w) ->
  N.of_nat (length range) < 2 ^ w ->
  (its = 0%nat \/ bits * N.of_nat (pred its) < w) ->
  let nb := N.to_nat (2 ^ bits) in
  r_mem st0 = (range, snd (r_mem st0)) -> length (snd (r_mem st0)) = length range ->
  r_flip st0 = false -> r_mask st0 = 2 ^ bits - 1 -> r_moff st0 = 0 ->
  r_counter st0 = map N.of_nat (map (fun k => countb (fun x => (x =? k)%nat)
       (map (fun x => N.to_nat (N.land (proj x) (2 ^ bits - 1))) range)) (seq 0 nb)) ->
  exists st, ofold (radix_pass w bits nb proj) (seq 0 its) st0 = Some st /\
    ssorted (fun x => low (proj x) (bits * N.of_nat its)) range
            (if Nat.even its then fst (r_mem st) else snd (r_mem st)).
Proof.
  intros Hb Hbw Hv Hn Hits nb Hm0 L0 F0 M0 O0 C0.
  assert (Hpw : 2 ^ bits - 1 < 2 ^ w).
  { assert (2 ^ bits <= 2 ^ w) by (apply N.pow_le_mono_r; lia).
    assert (0 < 2 ^ bits) by (apply N.neq_0_lt_0, N.pow_nonzero; lia). lia. }
  pose (Inv := fun (p : list nat) (st : rstate T) =>
    let i := length p in
    length (fst (r_mem st)) = length range /\ length (snd (r_mem st)) = length range /\
    ssorted (fun x => low (proj x) (bits * N.of_nat i)) range (cur_of st) /\
    (bits * N.of_nat i < 2 ^ w ->
      r_mask st = ((2 ^ bits - 1) * 2 ^ (bits * N.of_nat i)) mod 2 ^ w /\
      r_moff st = bits * N.of_nat i) /\
    (i = 0%nat -> r_counter st = map N.of_nat (map (fun k => countb (fun x => (x =? k)%nat)
       (map (fun x => N.to_nat (N.land (proj x) (r_mask st))) (cur_of st))) (seq 0 nb))) /\
    r_flip st = Nat.odd i).
  destruct (@ofold_prefix_ind _ _ (radix_pass w bits nb proj) Inv (seq 0 its) st0) as (st & Hr & HI).
  - unfold Inv. cbn [length]. rewrite N.mul_0_r. cbn [N.of_nat].
    assert (Hcur : cur_of st0 = range) by (unfold cur_of; rewrite F0, Hm0; reflexivity).
    repeat split.
    + now rewrite Hm0.
    + exact L0.
    + intro k. rewrite Hcur. reflexivity.
    + rewrite Hcur. eapply SS_impl_in; [|apply (ssorted_refl range)]. cbn. intros a b _ _ _.
      unfold low. rewrite !N.mod_1_r. lia.
    + rewrite M0. rewrite N.mul_1_r, N.mod_small by exact Hpw. reflexivity.
    + exact O0.
    + intros _. rewrite Hcur, M0. exact C0.
    + exact F0.
  - intros p a q st E (I1 & I2 & I3 & I4 & I5 & I6).
    assert (Ha : a = length p).
    { assert (nth_error (seq 0 its) (length p) = Some a) as Hna
        by (rewrite E, nth_error_app2, Nat.sub_diag by lia; reflexivity).
      pose proof (nth_error_bound _ _ _ Hna) as Hlt. rewrite seq_length in Hlt.
      rewrite nth_error_seq in Hna by exact Hlt. now injection Hna. }
    assert (Hlt : (length p < its)%nat).
    { rewrite <- (seq_length its 0), E, app_length. cbn. lia. }
    subst a. set (i := length p) in *.
    assert (Hiw : bits * N.of_nat i < w).
    { destruct Hits as [->|Hits]; [lia|]. assert (N.of_nat i <= N.of_nat (pred its)) by lia. nia. }
    pose proof (lt_pow2 w) as Hlw.
    destruct (I4 ltac:(lia)) as (I4a & I4b).
    destruct (radix_pass_spec w bits proj range its st i Hb Hbw Hv Hn Hiw I1 I2 I3 I4a I4b I5 I6 Hlt)
      as (st' & Hp & J1 & J2 & J3 & J4 & J5).
    exists st'. split; [exact Hp|]. unfold Inv. rewrite app_length. cbn [length]. rewrite Nat.add_1_r. fold i.
    split; [exact J1|]. split; [exact J2|]. split; [exact J3|]. split; [exact J4|]. split; [lia|exact J5].
  - exists st. split; [exact Hr|]. destruct HI as (_ & _ & I3 & _ & _ & I6).
    rewrite seq_length in *. unfold cur_of in I3. rewrite I6 in I3.
    rewrite <- Nat.negb_odd. destruct (Nat.odd its); exact I3.
Qed.

Lemma ssorted_of_low {T} (proj : T -> N) w s (range r : list T) mx :
  0 < w -> (forall x, In x range -> proj x < 2 ^ w) ->
  (forall x, In x range -> proj x <= mx) ->
  (mx < 2 ^ s \/ (forall x, In x range -> 2 ^ (w - 1) <= proj x) /\ mx - 2 ^ (w - 1) < 2 ^ s) ->
  ssorted (fun x => low (proj x) s) range r -> ssorted proj range r.
Proof.
  intros Hw Hv Hmx Hcase (H1 & H2).
  assert (Hin : forall x, In x r <-> In x range) by exact (in_of_filters _ _ _ H1).
  assert (Hkey : exists c, forall x, In x range -> proj x = low (proj x) s + c).
  { destruct Hcase as [Hs|(Htop & Hs)].
    - exists 0. intros x Hx. unfold low. rewrite N.mod_small; [lia|]. specialize (Hmx x Hx). lia.
    - destruct (N.lt_ge_cases s w) as [L|L].
      + exists (2 ^ (w - 1)). intros x Hx. unfold low.
        specialize (Htop x Hx). specialize (Hmx x Hx).
        replace (proj x) with (proj x - 2 ^ (w - 1) + 2 ^ (w - 1 - s) * 2 ^ s) at 2.
        2:{ rewrite <- N.pow_add_r. replace (w - 1 - s + s) with (w - 1) by lia. lia. }
        rewrite N.mod_add by (apply N.pow_nonzero; lia). rewrite N.mod_small by lia. lia.
      + exists 0. intros x Hx. unfold low. rewrite N.mod_small; [lia|].
        eapply N.lt_le_trans; [apply Hv, Hx|]. apply N.pow_le_mono_r; lia. }
  destruct Hkey as (c & Hkey). split.
  - intro k.
    destruct (N.le_gt_cases c k) as [L|L].
    + rewrite (filter_ext_in _ (fun x => low (proj x) s =? k - c) r).
      * rewrite (filter_ext_in _ (fun x => low (proj x) s =? k - c) range); [apply H1|].
        intros x Hx. rewrite (Hkey x Hx) at 1. lia.
      * intros x Hx. rewrite (Hkey x) at 1 by (now apply Hin). lia.
    + rewrite !filter_none; [reflexivity| |]; intros x Hx.
      * rewrite (Hkey x Hx). lia.
      * rewrite (Hkey x) by (now apply Hin). lia.
  - eapply SS_impl_in; [|exact H2]. cbn. intros a b Ha Hb H.
    rewrite (Hkey a), (Hkey b) by (now apply Hin). lia.
Qed.

Lemma radix_sort_ssorted {T} w bits (proj : T -> N) (range : list T) :
  0 < bits -> bits < w -> (forall x, In x range -> proj x < 2 ^ w) ->
  N.of_nat (length range) < 2 ^ w ->
  exists r, radix_sort w bits proj range = Some r /\ ssorted proj range r.
Proof.
  intros Hb Hbw Hv Hn. unfold radix_sort.
  destruct range as [|d t].
  { exists []. split; [reflexivity|]. split; [reflexivity|constructor]. }
  destruct t as [|d' t].
  { exists [d]. split; [reflexivity|]. split; [reflexivity|repeat constructor]. }
  set (range := d :: d' :: t) in *.
  assert (Hpb : 0 < 2 ^ bits) by (apply N.neq_0_lt_0, N.pow_nonzero; lia).
  assert (Hpw : 2 ^ bits < 2 ^ w) by (apply N.pow_lt_mono_r; lia).
  assert (Hbs : wrapN w (2 ^ bits) = 2 ^ bits) by (unfold wrapN; now rewrite N.mod_small).
  assert (Hms : wrapN w (2 ^ bits - 1) = 2 ^ bits - 1) by (unfold wrapN; rewrite N.mod_small; lia).
  rewrite Hbs, Hms. set (nb := N.to_nat (2 ^ bits)).
  assert (Hland : forall v, N.land v (2 ^ bits - 1) = v mod 2 ^ bits).
  { intro v. replace (2 ^ bits - 1) with (N.ones bits) by (now rewrite N.ones_equiv, N.sub_1_r). apply N.land_ones. }
  destruct (scan1_spec w (2 ^ bits - 1) nb proj range Hv) as (mx & al & Hs & Hmx & Hmxin & Hal).
  { lia. }
  { intros x _. rewrite Hland. unfold nb. pose proof (N.mod_lt (proj x) (2 ^ bits)). lia. }
  { exact Hn. }
  rewrite Hs. cbn [obind].
  destruct Hmxin as (xm & Hxm & Exm); [discriminate|].
  set (mv := if al then N.ldiff mx (N.shiftl 1 (w - 1)) else mx).
  assert (Hmv : mv <= mx /\ mv < 2 ^ w).
  { assert (mx < 2 ^ w) by (rewrite Exm; auto).
    unfold mv. destruct al; [|lia]. fold (top w). rewrite ldiff_top; [lia|lia|].
    split; [|lia]. rewrite Exm. apply Hal; auto. }
  destruct (num_its_spec bits Hb (N.to_nat w) mv) as (its & Hits & Hub & Hlb).
  { rewrite N2Nat.id. apply Hmv. }
  rewrite Hits. cbn [obind].
  destruct (radix_passes w bits proj range its
     (mkR (range, repeat d (length range)) false (2 ^ bits - 1) 0
        (map N.of_nat (map (fun k => countb (fun x => (x =? k)%nat)
             (map (fun x => N.to_nat (N.land (proj x) (2 ^ bits - 1))) range)) (seq 0 nb))))
     Hb Hbw Hv Hn) as (st & Hst & Hss).
  { destruct Hlb as [->|Hlb]; [now left|right].
    apply (N.pow_lt_mono_r_iff 2); [lia|]. lia. }
  { reflexivity. } { cbn. now rewrite repeat_length. }
  { reflexivity. } { reflexivity. } { reflexivity. } { reflexivity. }
  fold nb in Hst. rewrite Hst. cbn [obind]. eexists; split; [reflexivity|].
  eapply ssorted_of_low with (w := w) (mx := mx); eauto; [lia|].
  unfold mv in Hub. destruct al.
  - right. split; [now apply Hal|]. fold (top w) in Hub. rewrite ldiff_top in Hub; [exact Hub|lia|].
    rewrite Exm. split; [apply Hal; auto|auto].
  - left. exact Hub.
Qed.

Lemma radix_sort_correct {T} w bits (proj : T -> N) (range : list T) :
  0 < bits -> bits < w -> (forall x, In x range -> proj x < 2 ^ w) ->
  N.of_nat (length range) < 2 ^ w ->
  exists r, radix_sort w bits proj range = Some r /\ stable_sort_of N.le proj range r.
Proof.
  intros. destruct (radix_sort_ssorted w bits proj range) as (r & Hr & Hs); auto.
  exists r. split; [exact Hr|now apply ssorted_stable].
Qed.

(** ** Signed keys *)

Lemma unsigned_projection_eq w e :
  0 < w -> (- 2 ^ Z.of_N (w - 1) <= e < 2 ^ Z.of_N (w - 1))%Z ->
  Z.of_N (unsigned_projection w e) = (e + 2 ^ Z.of_N (w - 1))%Z.
Proof.
  intros Hw He. unfold unsigned_projection. fold (top w).
  pose proof (pow_split w Hw) as HP.
  assert (HZ : (2 ^ Z.of_N w = 2 * 2 ^ Z.of_N (w - 1))%Z).
  { apply (f_equal Z.of_N) in HP. now rewrite N2Z.inj_mul, !N2Z.inj_pow in HP. }
  assert (HPp : (0 < 2 ^ Z.of_N (w - 1))%Z) by (apply Z.pow_pos_nonneg; lia).
  assert (HT : Z.of_N (2 ^ (w - 1)) = (2 ^ Z.of_N (w - 1))%Z) by (rewrite N2Z.inj_pow; reflexivity).
  set (P := (2 ^ Z.of_N (w - 1))%Z) in *.
  destruct (Z.lt_ge_cases e 0) as [Hneg|Hpos].
  - assert (Em : (e mod 2 ^ Z.of_N w = e + 2 * P)%Z).
    { rewrite HZ. symmetry. apply Z.mod_unique with (q := (-1)%Z); lia. }
    rewrite Em.
    assert (Hx : N.lxor (Z.to_N (e + 2 * P)) (top w) = N.ldiff (Z.to_N (e + 2 * P)) (top w)).
    { apply N.bits_inj. intro i. rewrite N.lxor_spec, N.ldiff_spec.
      destruct (N.testbit (top w) i) eqn:Et; [|now rewrite xorb_false_r, andb_true_r].
      rewrite andb_false_r.
      assert (i = w - 1) as ->.
      { unfold top in Et. destruct (N.lt_ge_cases i (w - 1)) as [L|L]; [now rewrite N.shiftl_spec_low in Et|].
        rewrite N.shiftl_spec_high' in Et by exact L.
        destruct (N.eq_dec i (w - 1)) as [E|E]; [exact E|]. exfalso.
        rewrite testbit_1 in Et by lia. discriminate. }
      replace (N.testbit (Z.to_N (e + 2 * P)) (w - 1)) with true; [reflexivity|].
      symmetry. rewrite N.testbit_eqb.
      replace (Z.to_N (e + 2 * P) / 2 ^ (w - 1)) with 1; [reflexivity|].
      apply N.le_antisymm.
      - apply N.div_le_lower_bound; lia.
      - apply N.lt_succ_r. apply N.div_lt_upper_bound; lia. }
    rewrite Hx, ldiff_top by lia. lia.
  - assert (Em : (e mod 2 ^ Z.of_N w = e)%Z) by (apply Z.mod_small; lia).
    rewrite Em.
    assert (Hx : N.lxor (Z.to_N e) (top w) = Z.to_N e + top w).
    { rewrite <- N.add_nocarry_lxor; [reflexivity|].
      apply N.bits_inj_0. intro i. rewrite N.land_spec.
      destruct (N.testbit (top w) i) eqn:Et; [|apply andb_false_r].
      assert (w - 1 <= i).
      { destruct (N.lt_ge_cases i (w - 1)) as [L|L]; [|exact L].
        unfold top in Et. now rewrite N.shiftl_spec_low in Et. }
      replace (N.testbit (Z.to_N e) i) with false; [reflexivity|].
      symmetry. rewrite N.testbit_eqb, N.div_small; [reflexivity|].
      eapply N.lt_le_trans with (2 ^ (w - 1)); [lia|]. apply N.pow_le_mono_r; lia. }
    rewrite Hx, N2Z.inj_add, top_pow. lia.
Qed.


Lemma unsigned_projection_bound w e : 0 < w -> in_signed w e -> unsigned_projection w e < 2 ^ w.
Proof.
  intros Hw He. pose proof (unsigned_projection_eq w e Hw He) as E. unfold in_signed in He.
  pose proof (pow_split w Hw) as HP.
  assert (HT : Z.of_N (2 ^ (w - 1)) = (2 ^ Z.of_N (w - 1))%Z) by (rewrite N2Z.inj_pow; reflexivity). lia.
Qed.

Lemma stable_signed {T} w (proj : T -> Z) (range r : list T) :
  0 < w -> (forall x, In x range -> in_signed w (proj x)) ->
  ssorted (fun e => unsigned_projection w (proj e)) range r ->
  stable_sort_of Z.le proj range r.
Proof.
  intros Hw Hv Hs. pose proof (ssorted_stable _ _ _ Hs) as (Hp & Hso & Hf).
  assert (Hin : forall x, In x r -> in_signed w (proj x)).
  { intros x Hx. apply Hv. eapply Permutation_in; [apply Permutation_sym; exact Hp|exact Hx]. }
  split; [exact Hp|]. split.
  - eapply SS_impl_in; [|exact Hso]. cbn. intros a b Ha Hb H.
    pose proof (unsigned_projection_eq w _ Hw (Hin a Ha)).
    pose proof (unsigned_projection_eq w _ Hw (Hin b Hb)). lia.
  - intros p Hpp. apply Hf. intros a b Ha Hb Pa Pb. f_equal. auto.
Qed.

Lemma radix_sort_signed_correct {T} w bits (proj : T -> Z) (range : list T) :
  0 < bits -> bits < w -> (forall x, In x range -> in_signed w (proj x)) ->
  N.of_nat (length range) < 2 ^ w ->
  exists r, radix_sort_signed w bits proj range = Some r /\ stable_sort_of Z.le proj range r.
Proof.
  intros Hb Hbw Hv Hn. unfold radix_sort_signed.
  destruct (radix_sort_ssorted w bits (fun e => unsigned_projection w (proj e)) range) as (r & Hr & Hs); auto.
  { intros x Hx. apply unsigned_projection_bound; [lia|auto]. }
  exists r. split; [exact Hr|]. apply stable_signed with (w := w); auto. lia.
Qed.

(** ** Lexicographic sorting by successive stable passes *)

Lemma SS_by_classes {T} (k1 : T -> Z) (R : T -> T -> Prop) r :
  StronglySorted (fun a b => (k1 a <= k1 b)%Z) r ->
  (forall v, StronglySorted R (filter (fun x => Z.eqb (k1 x) v) r)) ->
  StronglySorted (fun a b => (k1 a < k1 b)%Z \/ k1 a = k1 b /\ R a b) r.
Proof.
  induction 1 as [|a t Hs IH Hf]; intro H; constructor.
  - apply IH. intro v. specialize (H v). cbn in H. destruct (Z.eqb (k1 a) v); [now inversion H|exact H].
  - apply Forall_forall. intros b Hb. rewrite Forall_forall in Hf. specialize (Hf b Hb).
    destruct (Z.eq_dec (k1 a) (k1 b)) as [E|Ne]; [right|left; lia].
    split; [exact E|]. specialize (H (k1 a)). cbn in H. rewrite Z.eqb_refl in H.
    inversion H as [|? ? _ HF]; subst. rewrite Forall_forall in HF. apply HF.
    apply filter_In. split; [exact Hb|]. now apply Z.eqb_eq.
Qed.

Lemma stable_lex {T} (k1 : T -> Z) (k2 : T -> list Z) l r1 r2 :
  stable_sort_of lex_le k2 l r1 -> stable_sort_of Z.le k1 r1 r2 ->
  stable_sort_of lex_le (fun x => k1 x :: k2 x) l r2.
Proof.
  intros (P1 & S1 & F1) (P2 & S2 & F2). split; [now apply Permutation_trans with r1|].
  assert (Hin : forall x, In x r1 -> In x l).
  { intros x Hx. eapply Permutation_in; [apply Permutation_sym; exact P1|exact Hx]. }
  split.
  - cbn [lex_le]. apply SS_by_classes; [exact S2|]. intro v. rewrite F2.
    + now apply SS_filter.
    + intros a b _ _ Ha Hb. apply Z.eqb_eq in Ha. apply Z.eqb_eq in Hb. congruence.
  - intros p Hp. rewrite F2, F1; [reflexivity| |].
    + intros a b Ia Ib Ha Hb. specialize (Hp a b Ia Ib Ha Hb). congruence.
    + intros a b Ia Ib Ha Hb. specialize (Hp a b (Hin a Ia) (Hin b Ib) Ha Hb). congruence.
Qed.

Lemma stable_ext {T K} (le : K -> K -> Prop) (k1 k2 : T -> K) l r :
  (forall x, In x l -> k1 x = k2 x) -> stable_sort_of le k1 l r -> stable_sort_of le k2 l r.
Proof.
  intros E (P & S & F).
  assert (Er : forall x, In x r -> k1 x = k2 x).
  { intros x Hx. apply E. eapply Permutation_in; [apply Permutation_sym; exact P|exact Hx]. }
  split; [exact P|]. split.
  - eapply SS_impl_in; [|exact S]. cbn. intros a b Ha Hb. now rewrite !Er.
  - intros p Hp. apply F. intros a b Ia Ib Ha Hb. rewrite !E by assumption. auto.
Qed.

(** A right-to-left sequence of stable passes over key columns [c 0 .. c (n-1)]. *)
Lemma seq_true_sorted a n : StronglySorted (fun _ _ : nat => True) (seq a n).
Proof. revert a; induction n as [|n IH]; intro a; cbn; constructor; auto. apply Forall_forall; auto. Qed.

Lemma passes_lex w bits (c : nat -> nat -> Z) n n0 (pass : list nat -> nat -> option (list nat)) :
  0 < bits -> bits < w -> N.of_nat n0 < 2 ^ w ->
  (forall k j, (k < n)%nat -> (j < n0)%nat -> in_signed w (c k j)) ->
  (forall perm i, (i < n)%nat ->
     exists col, pass perm i = radix_sort_signed w bits (fun j => nth j col 0%Z) perm /\
                 forall j, (j < n0)%nat -> nth j col 0%Z = c (n - 1 - i)%nat j) ->
  exists perm, ofold pass (seq 0 n) (seq 0 n0) = Some perm /\
    stable_sort_of lex_le (fun j => map (fun k => c k j) (seq 0 n)) (seq 0 n0) perm.
Proof.
  intros Hb Hbw Hn Hc Hpass.
  pose (Inv := fun (p : list nat) perm =>
    stable_sort_of lex_le (fun j => map (fun k => c k j) (seq (n - length p) (length p))) (seq 0 n0) perm).
  destruct (@ofold_prefix_ind _ _ pass Inv (seq 0 n) (seq 0 n0)) as (perm & Hr & HI).
  - unfold Inv. cbn. split; [reflexivity|]. split; [apply seq_true_sorted|reflexivity].
  - intros p a q perm E HI.
    assert (Ha : a = length p /\ (length p < n)%nat).
    { assert (Hna : nth_error (seq 0 n) (length p) = Some a)
        by (rewrite E, nth_error_app2, Nat.sub_diag by lia; reflexivity).
      pose proof (nth_error_bound _ _ _ Hna) as Hlt. rewrite seq_length in Hlt.
      rewrite nth_error_seq in Hna by exact Hlt. injection Hna as <-. lia. }
    destruct Ha as (-> & Hlt). destruct (Hpass perm (length p) Hlt) as (col & Hp & Hcol).
    assert (Hperm : Permutation (seq 0 n0) perm) by apply HI.
    assert (Hbd : forall x, In x perm -> (x < n0)%nat).
    { intros x Hx. eapply Permutation_in in Hx; [|apply Permutation_sym; exact Hperm]. apply in_seq in Hx. lia. }
    destruct (radix_sort_signed_correct w bits (fun j => nth j col 0%Z) perm Hb Hbw) as (r & Hrr & Hst).
    { intros x Hx. rewrite Hcol by auto. apply Hc; [lia|auto]. }
    { rewrite <- (Permutation_length Hperm), seq_length. exact Hn. }
    exists r. rewrite Hp. split; [exact Hrr|]. unfold Inv. rewrite app_length. cbn [length].
    rewrite Nat.add_1_r.
    eapply stable_ext; [|apply (stable_lex (fun j => nth j col 0%Z) _ _ _ _ HI Hst)].
    intros x Hx. apply in_seq in Hx. cbn beta. rewrite Hcol by lia.
    replace (n - S (length p))%nat with (n - 1 - length p)%nat by lia. cbn [seq map]. do 2 f_equal.
    f_equal. lia.
  - exists perm. split; [exact Hr|]. unfold Inv in HI. rewrite seq_length, Nat.sub_diag in HI. exact HI.
Qed.

Lemma omap_seq_nth {A} (f : nat -> option A) n l d :
  omap f (seq 0 n) = Some l -> forall j, (j < n)%nat -> f j = Some (nth j l d).
Proof.
  intros H j Hj. pose proof (omap_length _ _ _ H) as HL. rewrite seq_length in HL.
  destruct (omap_nth _ _ _ H j j) as (b & Hn & Hb); [now apply nth_error_seq|].
  rewrite Hb. f_equal. symmetry. now apply nth_error_nth.
Qed.

Lemma sort_by_perm_correct w bits x shape1 ncols n0 :
  0 < bits -> bits < w -> N.of_nat n0 < 2 ^ w ->
  length x = (n0 * shape1)%nat -> (0 < shape1)%nat -> (ncols <= shape1)%nat ->
  Forall (in_signed w) x ->
  exists perm, sort_by_perm w bits x shape1 ncols = Some perm /\
    stable_sort_of lex_le (row x shape1 ncols) (seq 0 n0) perm.
Proof.
  intros Hb Hbw Hn Hl Hs Hc Hx. unfold sort_by_perm.
  destruct x as [|x0 xs].
  { cbn in Hl. assert (n0 = 0%nat) as -> by nia. exists []. split; [reflexivity|].
    split; [reflexivity|]. split; [constructor|reflexivity]. }
  rewrite Hl, Nat.div_mul by lia.
  set (x := x0 :: xs) in *.
  apply (passes_lex w bits (fun k j => nth (j * shape1 + k) x 0%Z)); auto.
  - intros k j Hk Hj. rewrite Forall_forall in Hx. apply Hx, nth_In. nia.
  - intros perm i Hi. cbn beta.
    destruct (omap (fun j => nth_error x (j * shape1 + (ncols - 1 - i))) (seq 0 n0)) as [col|] eqn:E.
    + exists col. split; [reflexivity|]. intros j Hj.
      pose proof (omap_seq_nth _ _ _ 0%Z E j Hj) as H. symmetry. now apply nth_error_nth.
    + exfalso. assert (Ht : exists col, omap (fun j => nth_error x (j * shape1 + (ncols - 1 - i))) (seq 0 n0) = Some col).
      { apply omap_some. intros j Hj. apply in_seq in Hj.
        apply nth_error_lt. nia. }
      destruct Ht as (col & Ht). congruence.
Qed.

Lemma sort_by_perm_cols_correct w bits (cols : list (list Z)) n0 :
  0 < bits -> bits < w -> N.of_nat n0 < 2 ^ w -> cols <> [] ->
  Forall (fun c => length c = n0 /\ Forall (in_signed w) c) cols ->
  exists perm, sort_by_perm_cols w bits cols = Some perm /\
    stable_sort_of lex_le (fun j => map (fun c => nth j c 0%Z) cols) (seq 0 n0) perm.
Proof.
  intros Hb Hbw Hn Hne Hx. unfold sort_by_perm_cols.
  destruct cols as [|c0 cs]; [contradiction|].
  assert (H0 : length c0 = n0) by (inversion Hx; tauto). rewrite H0.
  set (cols := c0 :: cs) in *. rewrite Forall_forall in Hx.
  destruct (passes_lex w bits (fun k j => nth j (nth k cols []) 0%Z) (length cols) n0
     (fun perm i => column <- nth_error cols (length cols - 1 - i) ;;
        radix_sort_signed w bits (fun index => nth index column 0%Z) perm)) as (perm & Hp & Hst); auto.
  - intros k j Hk Hj. destruct (Hx (nth k cols [])) as (Hl & Hf); [now apply nth_In|].
    rewrite Forall_forall in Hf. apply Hf, nth_In. lia.
  - intros perm i Hi. exists (nth (length cols - 1 - i) cols []). split; [|reflexivity].
    rewrite (nth_error_nth' cols []) by lia. reflexivity.
  - exists perm. split; [exact Hp|]. eapply stable_ext; [|exact Hst]. intros j _. cbn beta.
    transitivity (map (fun c => nth j c 0%Z) (map (fun k => nth k cols []) (seq 0 (length cols)))).
    + now rewrite map_map.
    + f_equal. apply nth_error_ext. intro k. rewrite nth_error_map_some.
      destruct (Nat.lt_ge_cases k (length cols)) as [L|L].
      * rewrite nth_error_seq by exact L. cbn [option_map]. now rewrite (nth_error_nth' cols []) by exact L.
      * replace (nth_error (seq 0 (length cols)) k) with (@None nat).
        2:{ symmetry. apply nth_error_None. now rewrite seq_length. }
        symmetry. now apply nth_error_None.
Qed.

(** ** sort_unique *)

Lemma unique_from_head {A} (e : A -> A -> bool) x l : exists t, unique_from e x l = x :: t.
Proof. induction l as [|y t IH]; cbn; [eauto|]. destruct (e x y); eauto. Qed.

Lemma unique_from_in {A} (e : A -> A -> bool) x l y : In y (unique_from e x l) -> y = x \/ In y l.
Proof.
  revert x; induction l as [|z t IH]; intros x H; cbn in H.
  - destruct H as [<-|[]]; now left.
  - destruct (e x z).
    + destruct (IH _ H); [now left|right; now right].
    + destruct H as [<-|H]; [now left|]. destruct (IH _ H) as [->|]; right; [now left|now right].
Qed.

Lemma unique_pairs x l :
  StronglySorted pair_le (x :: l) ->
  let u := unique_from (fun a b => Z.eqb (fst a) (fst b)) x l in
  StronglySorted (fun a b => (fst a < fst b)%Z) u /\
  (forall p, In p u -> In p (x :: l) /\ forall q, In q (x :: l) -> fst q = fst p -> (snd p <= snd q)%Z) /\
  (forall q, In q (x :: l) -> exists p, In p u /\ fst p = fst q).
Proof.
  revert x; induction l as [|y t IH]; intros x H; cbv zeta; cbn [unique_from].
  - repeat split.
    + repeat constructor.
    + destruct H0 as [<-|[]]. now left.
    + intros q [<-|[]] _. destruct H0 as [<-|[]]. lia.
    + intros q [<-|[]]. exists x. split; [now left|reflexivity].
  - inversion H as [|? ? H1 H2]; subst. inversion H1 as [|? ? H3 H4]; subst.
    inversion H2 as [|? ? Hxy H5]; subst. rewrite Forall_forall in H4, H5.
    destruct (Z.eqb_spec (fst x) (fst y)) as [E|Ne].
    + destruct (IH x) as (I1 & I2 & I3).
      { constructor; [exact H3|]. apply Forall_forall. exact H5. }
      split; [exact I1|]. split.
      * intros p Hp. destruct (I2 p Hp) as (J1 & J2). split.
        -- destruct J1 as [<-|J1]; [now left|right; now right].
        -- intros q [<-|[<-|Hq]] Eq.
           ++ apply J2; [now left|exact Eq].
           ++ assert (snd p <= snd x)%Z by (apply J2; [now left|congruence]).
              destruct Hxy as [Hxy|(_ & Hxy)]; lia.
           ++ apply J2; [now right|exact Eq].
      * intros q [<-|[<-|Hq]].
        -- apply I3. now left.
        -- destruct (I3 x) as (p & Hp & Ep); [now left|]. exists p. split; [exact Hp|congruence].
        -- apply I3. now right.
    + destruct (IH y H1) as (I1 & I2 & I3).
      assert (Hlt : (fst x < fst y)%Z) by (destruct Hxy as [|(? & _)]; lia).
      assert (Hlt' : forall q, In q (y :: t) -> (fst x < fst q)%Z).
      { intros q [<-|Hq]; [exact Hlt|]. specialize (H4 q Hq). destruct H4 as [|(? & _)]; lia. }
      split; [|split].
      * constructor; [exact I1|]. apply Forall_forall. intros p Hp. apply Hlt'. apply I2. exact Hp.
      * intros p [<-|Hp].
        -- split; [now left|]. intros q [<-|Hq] Eq; [lia|]. specialize (Hlt' q Hq). lia.
        -- destruct (I2 p Hp) as (J1 & J2). split; [now right|].
           intros q [<-|Hq] Eq; [|now apply J2]. specialize (Hlt' p J1). lia.
      * intros q [<-|Hq]; [exists x; split; [now left|reflexivity]|].
        destruct (I3 q Hq) as (p & Hp & Ep). exists p. split; [now right|exact Ep].
Qed.

Lemma combine_split_map {A B} (l : list (A * B)) : combine (map fst l) (map snd l) = l.
Proof. induction l as [|[a b] t IH]; cbn; congruence. Qed.

Lemma SS_map {A B} (f : A -> B) (R : B -> B -> Prop) l :
  StronglySorted (fun a b => R (f a) (f b)) l -> StronglySorted R (map f l).
Proof.
  induction 1 as [|x t Hs IH Hf]; cbn; constructor; [exact IH|].
  rewrite Forall_forall in *. intros y Hy. apply in_map_iff in Hy as (z & <- & Hz). auto.
Qed.

Lemma sort_unique_correct srt indices values :
  (forall l, Permutation l (srt l) /\ StronglySorted pair_le (srt l)) ->
  length indices = length values ->
  exists is vs, sort_unique srt indices values = Some (is, vs) /\
    length is = length vs /\
    StronglySorted Z.lt is /\
    (forall i, In i is <-> In i indices) /\
    (forall i v, In (i, v) (combine is vs) ->
       In (i, v) (combine indices values) /\
       forall v', In (i, v') (combine indices values) -> (v <= v')%Z).
Proof.
  intros Hs Hl. unfold sort_unique. rewrite Hl, Nat.eqb_refl. cbn [negb].
  destruct (Hs (combine indices values)) as (HP & HS).
  set (d := srt (combine indices values)) in *.
  assert (Hin : forall p, In p d <-> In p (combine indices values)).
  { intro p. split; apply Permutation_in; [apply Permutation_sym|]; exact HP. }
  eexists _, _. split; [reflexivity|]. rewrite !map_length. split; [reflexivity|].
  rewrite combine_split_map.
  assert (Hfst : forall i, In i indices <-> exists p, In p d /\ fst p = i).
  { intro i. rewrite <- (map_fst_combine indices values) at 1 by lia. rewrite in_map_iff.
    split; intros (p & A1 & A2); exists p; [split; [now apply Hin|exact A1]|split; [exact A2|now apply Hin]]. }
  destruct d as [|x t] eqn:Ed.
  - cbn. split; [constructor|]. split.
    + intro i. rewrite Hfst. split; [intros []|]. intros (p & [] & _).
    + intros i v [].
  - cbn [unique]. destruct (unique_pairs x t HS) as (U1 & U2 & U3).
    split; [now apply SS_map|]. split.
    + intro i. rewrite Hfst, in_map_iff. split.
      * intros (p & E & Hp). exists p. split; [now apply U2|exact E].
      * intros (q & Hq & Eq). destruct (U3 q Hq) as (p & Hp & Ep). exists p. split; [congruence|exact Hp].
    + intros i v Hiv. destruct (U2 _ Hiv) as (J1 & J2). split; [now apply Hin|].
      intros v' Hv'. apply Hin in Hv'. apply (J2 _ Hv'). reflexivity.
Qed.

Lemma sort_unique_throws srt indices values :
  length indices <> length values -> sort_unique srt indices values = None.
Proof. intro H. unfold sort_unique. destruct (Nat.eqb_spec (length indices) (length values)); [contradiction|reflexivity]. Qed.

Fixpoint ins_pair (p : Z * Z) (l : list (Z * Z)) : list (Z * Z) :=
  match l with
  | [] => [p]
  | q :: t => if ((fst p <? fst q) || ((fst p =? fst q) && (snd p <=? snd q)))%Z
              then p :: l else q :: ins_pair p t
  end.
Definition ins_pairs (l : list (Z * Z)) : list (Z * Z) := fold_right ins_pair [] l.

Lemma ins_pair_perm p l : Permutation (p :: l) (ins_pair p l).
Proof.
  induction l as [|q t IH]; cbn; [reflexivity|].
  destruct (_ || _)%bool; [reflexivity|]. rewrite perm_swap. now apply perm_skip.
Qed.

Lemma ins_pair_sorted p l : StronglySorted pair_le l -> StronglySorted pair_le (ins_pair p l).
Proof.
  induction 1 as [|q t Hs IH Hf]; cbn; [repeat constructor|].
  destruct ((fst p <? fst q) || ((fst p =? fst q) && (snd p <=? snd q)))%Z eqn:E.
  - constructor; [now constructor|]. assert (pair_le p q) by (unfold pair_le; lia).
    constructor; [assumption|]. rewrite Forall_forall in *. intros r Hr. specialize (Hf r Hr).
    unfold pair_le in *. lia.
  - constructor; [exact IH|]. apply Forall_forall. intros r Hr.
    eapply Permutation_in in Hr; [|apply Permutation_sym, ins_pair_perm].
    rewrite Forall_forall in Hf. destruct Hr as [<-|Hr]; [unfold pair_le; lia|auto].
Qed.

Lemma ins_pairs_sorts l : Permutation l (ins_pairs l) /\ StronglySorted pair_le (ins_pairs l).
Proof.
  induction l as [|p t (IH1 & IH2)]; cbn; [split; constructor|]. split.
  - rewrite <- ins_pair_perm. now apply perm_skip.
  - now apply ins_pair_sorted.
Qed.

Lemma radix_overflow :
  match radix_sort 8 4 (fun x => x) (repeat 16 255 ++ [0; 16]) with
  | Some r => ~ Permutation r (repeat 16 255 ++ [0; 16])
  | None => True
  end.
Proof.
  destruct (radix_sort 8 4 (fun x => x) (repeat 16 255 ++ [0; 16])) as [r|] eqn:E; [|exact I].
  intro P. assert (H : In 0 r).
  { eapply Permutation_in; [apply Permutation_sym; exact P|]. apply in_or_app. right. now left. }
  assert (Hr : forallb (fun x => x =? 16) r = true).
  { assert (H2 : match radix_sort 8 4 (fun x => x) (repeat 16 255 ++ [0; 16]) with
                 | Some r => forallb (fun x => x =? 16) r | None => true end = true)
      by (vm_compute; reflexivity).
    now rewrite E in H2. }
  rewrite forallb_forall in Hr. specialize (Hr _ H). discriminate.
Qed.

Lemma columns_doc :
  exists perm a b, sort_by_perm_cols 64 16 [[0;1]; [1;0]]%Z = Some perm /\
    nth_error perm 0 = Some a /\ nth_error perm 1 = Some b /\
    (nth b [1;0] 0 < nth a [1;0] 0)%Z.
Proof.
  exists [0;1]%nat, 0%nat, 1%nat. split; [vm_compute; reflexivity|]. repeat split.
Qed.
