From Coq Require Import NArith.
From Verif Require Import Base BaseProofs Algo AlgoProofs TransProofs CellTypes Orient OrientSpec OrientProofs Sort SortSpec SortProofs TagsProofs Entities EntitiesSpec EntitiesProofs.
Open Scope nat_scope.

(** ** The loop that numbers runs of equal keys *)

Lemma row_eqb_iff a b : row_eqb a b = true <-> a = b.
Proof.
  revert b. induction a as [|x a IH]; intros [|y b]; cbn; split; intro H; try discriminate; auto.
  - apply andb_true_iff in H as [H1 H2]. apply Nat.eqb_eq in H1. apply IH in H2. congruence.
  - injection H as <- <-. rewrite Nat.eqb_refl. now apply IH.
Qed.
Lemma row_le_antisym a b : row_le a b -> row_le b a -> a = b.
Proof.
  revert b. induction a as [|x a IH]; intros [|y b]; cbn; try tauto. intros H1 H2.
  assert (x = y) as -> by lia. f_equal. apply IH; destruct H1, H2; try lia; tauto.
Qed.
Lemma prefix_split {A} (p : A -> bool) l : (forall x, In x (firstn (prefix_len p l) l) -> p x = true) /\
  match skipn (prefix_len p l) l with [] => True | x :: _ => p x = false end.
Proof.
  induction l as [|x l [IH1 IH2]]; [split; [intros ? []|exact I]|]. cbn [prefix_len]. destruct (p x) eqn:E.
  - cbn [firstn skipn]. split; [|exact IH2]. intros y [<-|Hy]; auto.
  - cbn [firstn skipn]. split; [intros ? []|exact E].
Qed.
Lemma fill_same l ix (c : nat) : Forall (fun i => i < length ix) l ->
  exists ix', ofold (fun ix idx => upd ix idx c) l ix = Some ix' /\ length ix' = length ix /\
    forall i, nth_error ix' i = if existsb (Nat.eqb i) l then Some c else nth_error ix i.
Proof.
  revert ix. induction l as [|k l IH]; intros ix H; [exists ix; repeat split; auto|].
  inversion H as [|? ? Hk Hl]; subst. destruct (upd_some ix k c Hk) as (ix1 & E1). pose proof (upd_length _ _ _ _ E1) as L1.
  destruct (IH ix1) as (ix' & E & L & Hn); [now rewrite L1|]. exists ix'. cbn [ofold]. rewrite E1. cbn [obind]. split; [exact E|]. split; [congruence|].
  intros i. rewrite Hn, (upd_nth _ _ _ i _ E1). cbn [existsb]. rewrite (Nat.eqb_sym k i). destruct (existsb _ l); [now rewrite orb_true_r|]. rewrite orb_false_r. reflexivity.
Qed.

Section Number.
Variable keys : list (list nat).
Let key i := nth i keys [].
Definition key_lt i j := row_le (nth i keys []) (nth j keys []) /\ nth i keys [] <> nth j keys [].

(** The numbers of [order], from [count] to [count'] *)
Definition numbered (order index : list nat) (count count' : nat) : Prop :=
  (forall i, In i order -> exists v, nth_error index i = Some v /\ count <= v < count') /\
  (forall n, count <= n < count' -> exists i, In i order /\ nth_error index i = Some n) /\
  (forall i j v w, In i order -> In j order -> nth_error index i = Some v -> nth_error index j = Some w -> (v < w <-> key_lt i j)).

Lemma number_nil fuel index count : number fuel keys [] index count = Some (index, count) /\ length index = length index /\ count <= count /\
    (forall i, ~ In i [] -> nth_error index i = nth_error index i) /\ numbered [] index count count.
Proof.
  split; [destruct fuel; reflexivity|]. split; [reflexivity|]. split; [lia|]. split; [reflexivity|].
  split; [intros i []|]. split; [intros; lia|]. intros i j v w [].
Qed.
Lemma number_ok fuel : forall order index count, length order <= fuel -> Forall (fun i => i < length index) order ->
  StronglySorted (fun i j => row_le (key i) (key j)) order ->
  exists index' count', number fuel keys order index count = Some (index', count') /\ length index' = length index /\ count <= count' /\
    (forall i, ~ In i order -> nth_error index' i = nth_error index i) /\ numbered order index' count count'.
Proof.
  induction fuel as [|fuel IH]; intros order index count Hf Hb Hs.
  - destruct order; [|cbn in Hf; lia]. exists index, count. now apply number_nil.
  - destruct order as [|i0 rest0]; [exists index, count; now apply number_nil|].
    cbn [number]. set (order := i0 :: rest0) in *. set (p := fun idx => row_eqb (nth i0 keys []) (nth idx keys [])).
    set (n := prefix_len p order). change (prefix_len p order) with n.
    destruct (prefix_split p order) as [Hp1 Hp2]. fold n in Hp1, Hp2.
    assert (Ho : order = firstn n order ++ skipn n order) by (symmetry; apply firstn_skipn).
    assert (Hn : 0 < n) by (unfold n, order; cbn [prefix_len]; unfold p at 1; rewrite (proj2 (row_eqb_iff _ _) eq_refl); lia).
    assert (Ha : forall i, In i (firstn n order) -> key i = key i0) by (intros i Hi; apply Hp1 in Hi; unfold p in Hi; apply row_eqb_iff in Hi; symmetry; exact Hi).
    assert (H0 : In i0 (firstn n order)) by (destruct n; [lia|now left]).
    assert (Hc : forall i j, In i (firstn n order) -> In j (skipn n order) -> row_le (key i) (key j)).
    { intros i j Hi Hj. rewrite Ho in Hs. clear -Hs Hi Hj. induction (firstn n order) as [|x t IHt]; [destruct Hi|]. inversion Hs as [|? ? Ht Hx]; subst.
      destruct Hi as [<-|Hi]; [|auto]. rewrite Forall_forall in Hx. apply Hx, in_or_app. auto. }
    assert (Hss : StronglySorted (fun i j => row_le (key i) (key j)) (skipn n order)).
    { rewrite Ho in Hs. clear -Hs. induction (firstn n order) as [|x t IHt]; [exact Hs|]. inversion Hs; subst. auto. }
    assert (Hr : forall j, In j (skipn n order) -> key j <> key i0).
    { intros j Hj Ej. destruct (skipn n order) as [|y t] eqn:Es; [destruct Hj|].
      assert (key y <> key i0) as Ny. { intros Ey. unfold p in Hp2. rewrite (proj2 (row_eqb_iff _ _)) in Hp2; [discriminate|]. symmetry. exact Ey. }
      destruct Hj as [<-|Hj]; [contradiction|]. inversion Hss as [|? ? _ Hy]; subst. rewrite Forall_forall in Hy. specialize (Hy _ Hj). rewrite Ej in Hy.
      apply Ny. apply row_le_antisym; [exact Hy|]. apply Hc; [exact H0|now left]. }
    assert (Hfa : Forall (fun i => i < length index) (firstn n order) /\ Forall (fun i => i < length index) (skipn n order)) by (rewrite Ho in Hb; now apply Forall_app in Hb).
    destruct (fill_same (firstn n order) index count (proj1 Hfa)) as (ix1 & E1 & L1 & N1). rewrite E1. cbn [obind].
    destruct (IH (skipn n order) ix1 (S count)) as (index' & count' & E & L & C & Hout & H1 & H2 & H3).
    { rewrite skipn_length. lia. } { rewrite L1. apply Hfa. } { exact Hss. }
    exists index', count'. split; [exact E|]. split; [congruence|]. split; [lia|].
    assert (Hdis : forall i, In i (firstn n order) -> ~ In i (skipn n order)) by (intros i Hi Hj; apply (Hr i Hj), Ha, Hi).
    assert (Hval : forall i, In i (firstn n order) -> nth_error index' i = Some count).
    { intros i Hi. rewrite Hout by (now apply Hdis). rewrite N1. destruct (existsb (Nat.eqb i) (firstn n order)) eqn:Ex; [reflexivity|].
      exfalso. assert (existsb (Nat.eqb i) (firstn n order) = true) by (apply existsb_exists; exists i; split; [exact Hi|apply Nat.eqb_refl]). congruence. }
    assert (Hsp : forall i, In i order -> In i (firstn n order) \/ In i (skipn n order)) by (intros i Hi; rewrite Ho in Hi; now apply in_app_or in Hi).
    split; [|split; [|split]].
    + intros i Hi. rewrite Hout by (intro Hj; apply Hi; rewrite Ho; apply in_or_app; auto). rewrite N1.
      destruct (existsb (Nat.eqb i) (firstn n order)) eqn:Ex; [|reflexivity]. exfalso. apply Hi. rewrite Ho. apply in_or_app. left.
      apply existsb_exists in Ex as (x & Hx & Ex). apply Nat.eqb_eq in Ex. congruence.
    + intros i Hi. destruct (Hsp i Hi) as [Hi'|Hi'].
      * exists count. split; [now apply Hval|lia].
      * destruct (H1 i Hi') as (v & Ev & Hv). exists v. split; [exact Ev|lia].
    + intros m Hm. destruct (Nat.eq_dec m count) as [->|Nm].
      * exists i0. split; [now left|]. now apply Hval.
      * destruct (H2 m ltac:(lia)) as (i & Hi & Ei). exists i. split; [|exact Ei]. rewrite Ho. apply in_or_app. auto.
    + intros i j v w Hi Hj Ev Ew. destruct (Hsp i Hi) as [Hi'|Hi'], (Hsp j Hj) as [Hj'|Hj'].
      * rewrite (Hval i Hi') in Ev. rewrite (Hval j Hj') in Ew. injection Ev as <-. injection Ew as <-. split; [lia|]. intros [_ N]. exfalso. apply N.
        change (key i = key j). now rewrite (Ha i Hi'), (Ha j Hj').
      * rewrite (Hval i Hi') in Ev. injection Ev as <-. destruct (H1 j Hj') as (w' & Ew' & Hw). rewrite Ew' in Ew. injection Ew as <-.
        split; [intros _|lia]. split; [now apply Hc|]. intros Ek. apply (Hr j Hj'). rewrite <- (Ha i Hi'). symmetry. exact Ek.
      * rewrite (Hval j Hj') in Ew. injection Ew as <-. destruct (H1 i Hi') as (w' & Ew' & Hw). rewrite Ew' in Ev. injection Ev as <-.
        split; [lia|]. intros [Hle N]. exfalso. apply N. apply row_le_antisym; [exact Hle|]. now apply Hc.
      * now apply H3.
Qed.
End Number.

(** Two numberings in the same order are equal. *)
Lemma numbered_le (lt1 : nat -> nat -> Prop) n (f g : nat -> nat) cf cg :
  (forall i, i < n -> f i < cf) -> (forall m, m < cf -> exists i, i < n /\ f i = m) ->
  (forall i j, i < n -> j < n -> (f i < f j <-> lt1 i j)) -> (forall i j, i < n -> j < n -> (g i < g j <-> lt1 i j)) ->
  (forall i, i < n -> g i < cg) ->
  (forall i, i < n -> f i <= g i) /\ cf <= cg.
Proof.
  intros Hf Hs H1 H2 Hg.
  assert (forall m i, i < n -> f i = m -> m <= g i) as H.
  { induction m as [|m IH]; intros i Hi E; [lia|]. specialize (Hf i Hi). destruct (Hs m ltac:(lia)) as (j & Hj & Ej). pose proof (IH j Hj Ej).
    assert (g j < g i); [|lia]. apply H2; auto. apply H1; auto. lia. }
  split; [intros i Hi; now apply (H _ i Hi)|]. destruct cf as [|cf]; [lia|]. destruct (Hs cf ltac:(lia)) as (j & Hj & Ej). pose proof (H _ j Hj Ej). specialize (Hg j Hj). lia.
Qed.
Lemma numbered_unique keys order1 order2 ix1 ix2 c1 c2 :
  Permutation (seq 0 (length keys)) order1 -> Permutation (seq 0 (length keys)) order2 -> length ix1 = length keys -> length ix2 = length keys ->
  numbered keys order1 ix1 0 c1 -> numbered keys order2 ix2 0 c2 -> ix1 = ix2 /\ c1 = c2.
Proof.
  intros P1 P2 L1 L2 (A1 & B1 & D1) (A2 & B2 & D2).
  assert (I1 : forall i, In i order1 <-> i < length keys) by (intro i; rewrite <- P1, in_seq; lia).
  assert (I2 : forall i, In i order2 <-> i < length keys) by (intro i; rewrite <- P2, in_seq; lia).
  assert (N1 : forall i, i < length keys -> nth_error ix1 i = Some (nth i ix1 0)) by (intros; apply nth_error_nth'; lia).
  assert (N2 : forall i, i < length keys -> nth_error ix2 i = Some (nth i ix2 0)) by (intros; apply nth_error_nth'; lia).
  assert (F1 : forall i, i < length keys -> nth i ix1 0 < c1).
  { intros i Hi. destruct (A1 i (proj2 (I1 i) Hi)) as (v & Ev & Hv). rewrite N1 in Ev by exact Hi. injection Ev as ->. lia. }
  assert (F2 : forall i, i < length keys -> nth i ix2 0 < c2).
  { intros i Hi. destruct (A2 i (proj2 (I2 i) Hi)) as (v & Ev & Hv). rewrite N2 in Ev by exact Hi. injection Ev as ->. lia. }
  assert (S1 : forall m, m < c1 -> exists i, i < length keys /\ nth i ix1 0 = m).
  { intros m Hm. destruct (B1 m ltac:(lia)) as (i & Hi & Ei). apply I1 in Hi. exists i. split; [exact Hi|]. rewrite N1 in Ei by exact Hi. congruence. }
  assert (S2 : forall m, m < c2 -> exists i, i < length keys /\ nth i ix2 0 = m).
  { intros m Hm. destruct (B2 m ltac:(lia)) as (i & Hi & Ei). apply I2 in Hi. exists i. split; [exact Hi|]. rewrite N2 in Ei by exact Hi. congruence. }
  assert (T1 : forall i j, i < length keys -> j < length keys -> (nth i ix1 0 < nth j ix1 0 <-> key_lt keys i j)).
  { intros i j Hi Hj. apply D1; [now apply I1|now apply I1|now apply N1|now apply N1]. }
  assert (T2 : forall i j, i < length keys -> j < length keys -> (nth i ix2 0 < nth j ix2 0 <-> key_lt keys i j)).
  { intros i j Hi Hj. apply D2; [now apply I2|now apply I2|now apply N2|now apply N2]. }
  destruct (numbered_le _ _ _ _ _ _ F1 S1 T1 T2 F2) as [U1 V1]. destruct (numbered_le _ _ _ _ _ _ F2 S2 T2 T1 F1) as [U2 V2].
  split; [|lia]. apply nth_error_ext. intros i. destruct (Nat.lt_ge_cases i (length keys)) as [Hi|Hi].
  - rewrite N1, N2 by exact Hi. f_equal. specialize (U1 i Hi). specialize (U2 i Hi). lia.
  - rewrite !(proj2 (nth_error_None _ _)) by lia. reflexivity.
Qed.

(** Both sorts *)
Lemma lex_row_le nv a b : length a = nv -> length b = nv ->
  lex_le (map (fun k => Z.of_nat (nth k a 0)) (seq 0 nv)) (map (fun k => Z.of_nat (nth k b 0)) (seq 0 nv)) -> row_le a b.
Proof.
  intros La Lb. assert (forall l : list nat, map (fun k => Z.of_nat (nth k l 0)) (seq 0 (length l)) = map Z.of_nat l) as Hm.
  { induction l as [|x l IH]; [reflexivity|]. cbn [length seq map nth]. f_equal. rewrite <- seq_shift, map_map. exact IH. }
  rewrite <- La at 1. rewrite <- Lb. rewrite !Hm. clear. revert b. induction a as [|x a IH]; intros [|y b]; cbn; try tauto. intros [H|[H1 H2]]; [left; lia|right]. split; [lia|auto].
Qed.

Section Entities.
Variables (nv : nat) (keys : list (list nat)) (threads : nat) (tsort : list (list nat) -> list nat).
Hypothesis Hnv : 0 < nv.
Hypothesis Hk : Forall (fun k => length k = nv /\ Forall (fun v => (Z.of_nat v < 2 ^ 31)%Z) k) keys.
Hypothesis Hn : (N.of_nat (length keys) < 2 ^ 32)%N.
Hypothesis Hts : sorts_rows tsort.

Lemma order_ok : exists order, (if threads =? 1 then sort_by_perm_cols 32 16 (map (fun k => map (fun row => Z.of_nat (nth k row 0)) keys) (seq 0 nv)) else Some (tsort keys)) = Some order /\
  Permutation (seq 0 (length keys)) order /\ StronglySorted (fun i j => row_le (nth i keys []) (nth j keys [])) order.
Proof.
  destruct (Nat.eqb_spec threads 1) as [E|N].
  - destruct (sort_by_perm_cols_correct 32 16 (map (fun k => map (fun row => Z.of_nat (nth k row 0)) keys) (seq 0 nv)) (length keys)) as (perm & Ep & Hp & Hs & _).
    + reflexivity. + reflexivity. + exact Hn. + destruct nv; [lia|discriminate].
    + apply Forall_forall. intros c Hc. apply in_map_iff in Hc as (k & <- & Hkk). apply in_seq in Hkk. split; [apply map_length|].
      apply Forall_forall. intros z Hz. apply in_map_iff in Hz as (row & <- & Hrow). rewrite Forall_forall in Hk. destruct (Hk row Hrow) as [Lr Br].
      rewrite Forall_forall in Br. assert (In (nth k row 0) row) as Hin by (apply nth_In; lia). specialize (Br _ Hin). unfold in_signed. cbn in Br |- *. lia.
    + exists perm. split; [exact Ep|]. split; [exact Hp|].
      assert (forall i, In i perm -> i < length keys) as Hin by (intros i Hi; rewrite <- Hp in Hi; apply in_seq in Hi; lia).
      clear - Hs Hin Hk. induction Hs as [|i perm Hs IH Hi]; [constructor|]. constructor; [apply IH; intros; apply Hin; now right|].
      rewrite Forall_forall in Hi |- *. intros j Hj. specialize (Hi j Hj). rewrite !map_map in Hi. rewrite Forall_forall in Hk.
      assert (Hi0 : i < length keys) by (apply Hin; now left). assert (Hj0 : j < length keys) by (apply Hin; now right).
      apply (lex_row_le nv); [apply Hk, nth_In; exact Hi0|apply Hk, nth_In; exact Hj0|].
      assert (forall m, m < length keys -> map (fun x => nth m (map (fun row => Z.of_nat (nth x row 0)) keys) 0%Z) (seq 0 nv) = map (fun k => Z.of_nat (nth k (nth m keys []) 0)) (seq 0 nv)) as Hm.
      { intros m Hm. apply map_ext. intros k. rewrite (nth_indep _ 0%Z (Z.of_nat (nth k [] 0))) by (rewrite map_length; exact Hm). exact (map_nth (fun row => Z.of_nat (nth k row 0)) keys [] m). }
      now rewrite !Hm in Hi.
  - exists (tsort keys). split; [reflexivity|]. apply Hts.
Qed.

Lemma number_entities_ok : exists order index count, number_entities nv keys threads tsort = Some (index, count) /\ length index = length keys /\
  Permutation (seq 0 (length keys)) order /\ numbered keys order index 0 count.
Proof.
  unfold number_entities. destruct order_ok as (order & Eo & Hp & Hs). rewrite Eo. cbn [obind].
  destruct (number_ok keys (length order) order (repeat 0 (length keys)) 0) as (index & count & E & L & _ & _ & Hnum); [lia| |exact Hs|].
  - apply Forall_forall. intros i Hi. rewrite <- Hp in Hi. apply in_seq in Hi. rewrite repeat_length. lia.
  - exists order, index, count. rewrite repeat_length in L. auto.
Qed.
End Entities.

(** ** Ghost status *)
Lemma ghost_fold l index st n : (forall i, In i l -> exists v, nth_error index i = Some v /\ v < length st) -> length st = n ->
  exists st', ofold (fun st i => idx <- nth_error index i ;; upd st idx 0) l st = Some st' /\ length st' = n /\
    forall v, nth_error st' v = if existsb (fun i => match nth_error index i with Some w => w =? v | None => false end) l then Some 0 else nth_error st v.
Proof.
  revert st. induction l as [|i l IH]; intros st H Hl; [exists st; auto|].
  destruct (H i (or_introl eq_refl)) as (v & Ev & Hv). destruct (upd_some st v 0 Hv) as (st1 & E1). pose proof (upd_length _ _ _ _ E1) as L1.
  destruct (IH st1) as (st' & E & L & Hs).
  { intros k Hk. rewrite L1. apply H. now right. } { congruence. }
  exists st'. cbn [ofold]. rewrite Ev. cbn [obind]. rewrite E1. cbn [obind]. split; [exact E|]. split; [exact L|]. intros w. rewrite Hs. cbn [existsb]. rewrite Ev.
  rewrite (upd_nth _ _ _ w _ E1). destruct (v =? w); cbn [orb]; [|reflexivity]. destruct (existsb _ l); reflexivity.
Qed.

Section Ghost.
Variables (etype : cell_type) (dim : nat) (lists : list cell_list) (index : list nat) (count : nat).
Let all := raw_all etype dim lists.
Let lens := map (fun cl => length (raw_list etype dim cl)) lists.
Hypothesis Hlen : length index = length all.
Hypothesis Hix : forall i v, nth_error index i = Some v -> v < count.
Hypothesis Hown : Forall (fun cl => cl_owned cl <= length (cl_cells cl)) lists.

Definition flag_at (p : nat) (b : bool) : Prop := exists r, nth_error all p = Some r /\ snd (fst (fst r)) = b.

Lemma flag_pos k cl i : nth_error lists k = Some cl -> i < length (raw_list etype dim cl) ->
  flag_at (lsum (firstn k lens) + i) true <-> i < cl_owned cl * length (raw_ents etype dim (cl_type cl)).
Proof.
  clear Hown Hix Hlen. intros Hk Hi. set (ne := length (raw_ents etype dim (cl_type cl))). pose proof (raw_list_length etype dim cl) as Lr. fold ne in Lr.
  assert (ne <> 0) as Nz by (intros E; rewrite E in Lr; lia).
  assert (i / ne < length (cl_cells cl)) as Hc by (apply Nat.div_lt_upper_bound; lia).
  pose proof (Nat.mod_upper_bound i ne Nz) as Hm. pose proof (Nat.div_mod i ne Nz) as Hd.
  destruct (nth_error (cl_cells cl) (i / ne)) as [vs|] eqn:Ec; [|apply nth_error_None in Ec; lia].
  destruct (nth_error (raw_ents etype dim (cl_type cl)) (i mod ne)) as [e|] eqn:Ee; [|apply nth_error_None in Ee; fold ne in Ee; lia].
  pose proof (raw_list_nth etype dim cl _ _ _ _ Ec Ee) as Hn. fold ne in Hn. replace (i / ne * ne + i mod ne) with i in Hn by lia.
  assert (nth_error all (lsum (firstn k lens) + i) = Some (cl_type cl, i / ne <? cl_owned cl, vs, e)) as Ha.
  { unfold all, raw_all. assert (lsum (firstn k lens) = length (concat (firstn k (map (raw_list etype dim) lists)))) as ->.
    { unfold lens. rewrite !firstn_map. clear. induction (firstn k lists) as [|x t IH]; [reflexivity|]. cbn [map concat]. rewrite lsum_cons, app_length. lia. }
    rewrite <- Hn. assert (nth_error (map (raw_list etype dim) lists) k = Some (raw_list etype dim cl)) as Hk' by (now rewrite nth_error_map, Hk).
    clear - Hk' Hi. revert k Hk'. induction (map (raw_list etype dim) lists) as [|x t IH]; intros k Hk; [destruct k; discriminate|].
    destruct k as [|k]; cbn [firstn concat].
    - injection Hk as ->. cbn [length plus]. now rewrite nth_error_app1.
    - rewrite app_length, <- Nat.add_assoc, nth_error_app2 by lia. replace (length x + _ - length x) with (length (concat (firstn k t)) + i) by lia. now apply IH. }
  split.
  - intros (r & Er & Hr). rewrite Ha in Er. injection Er as <-. cbn in Hr. apply Nat.ltb_lt in Hr. nia.
  - intros H. exists (cl_type cl, i / ne <? cl_owned cl, vs, e). split; [exact Ha|]. cbn. apply Nat.ltb_lt. apply Nat.div_lt_upper_bound; lia.
Qed.

Lemma ghost_ok : exists st, ghost_status lists (map (fun cl => raw_ents etype dim (cl_type cl)) lists) (psums lens) index count = Some st /\ length st = count /\
  forall v, v < count -> (nth_error st v = Some 0 /\ exists p, nth_error index p = Some v /\ flag_at p true) \/
                         (nth_error st v = Some 1 /\ ~ exists p, nth_error index p = Some v /\ flag_at p true).
Proof.
  unfold ghost_status. match goal with |- exists st, ofold ?f _ _ = _ /\ _ => set (F := f) end.
  destruct (enum_ind F (fun k st => length st = count /\ forall v, v < count ->
     (nth_error st v = Some 0 /\ exists p, p < lsum (firstn k lens) /\ nth_error index p = Some v /\ flag_at p true) \/
     (nth_error st v = Some 1 /\ ~ exists p, p < lsum (firstn k lens) /\ nth_error index p = Some v /\ flag_at p true)) lists (repeat 1 count)) as (st & E & L & Hs).
  - split; [apply repeat_length|]. intros v Hv. right. split; [now apply nth_error_repeat|]. intros (p & Hp & _). cbn [firstn] in Hp. rewrite lsum_nil in Hp. lia.
  - intros k cl st Hk [L Hs]. unfold F. cbn [fst snd]. rewrite nth_error_map, Hk. cbn [option_map obind].
    assert (k < length lists) as Hkl by (now apply ne_lt in Hk). assert (length lens = length lists) as Ll by apply map_length.
    rewrite psums_nth by lia. cbn [obind]. set (off := lsum (firstn k lens)) in *. set (ne := length (raw_ents etype dim (cl_type cl))).
    assert (nth_error lens k = Some (length (raw_list etype dim cl))) as Hlk by (unfold lens; now rewrite nth_error_map, Hk).
    pose proof (lsum_firstn_S _ _ _ Hlk) as HS. fold off in HS.
    pose proof (raw_list_length etype dim cl) as Lr. fold ne in Lr.
    assert (off + length (raw_list etype dim cl) <= length index) as Hbd.
    { rewrite Hlen. unfold all, raw_all. rewrite <- HS. transitivity (lsum lens).
      - clear. generalize (S k). clear k. generalize lens as l. induction l as [|x t IH]; intros k; [rewrite firstn_nil; lia|]. destruct k as [|k]; cbn [firstn]; [rewrite lsum_nil; lia|]. rewrite !lsum_cons. specialize (IH k). lia.
      - unfold lens. clear. induction lists as [|x t IH]; [cbn [map concat]; rewrite lsum_nil; cbn; lia|]. cbn [map concat]. rewrite lsum_cons, app_length. lia. }
    assert (cl_owned cl <= length (cl_cells cl)) as Ho by (rewrite Forall_forall in Hown; apply Hown; now apply nth_error_In in Hk).
    assert (cl_owned cl * ne <= length (raw_list etype dim cl)) as Hle by (rewrite Lr; now apply Nat.mul_le_mono_r).
    assert (ofold (fun st0 i => idx <- nth_error index (i + off);; upd st0 idx 0) (seq 0 (cl_owned cl * ne)) st
            = ofold (fun st0 i => idx <- nth_error index i;; upd st0 idx 0) (map (fun i => i + off) (seq 0 (cl_owned cl * ne))) st) as ->.
    { clear. generalize (seq 0 (cl_owned cl * ne)) as l. intros l. revert st. induction l as [|x l IH]; intros st; [reflexivity|]. cbn [map ofold]. destruct (nth_error index (x + off)) as [w|]; [|reflexivity]. cbn [obind]. destruct (upd st w 0) as [s'|]; [|reflexivity]. cbn [obind]. apply IH. }
    destruct (ghost_fold (map (fun i => i + off) (seq 0 (cl_owned cl * ne))) index st count) as (st' & E & L' & Hs').
    { intros i Hi. apply in_map_iff in Hi as (i' & <- & Hi). apply in_seq in Hi. destruct (nth_error index (i' + off)) as [v|] eqn:Ev; [|apply nth_error_None in Ev; lia]. exists v. split; [reflexivity|]. rewrite L. now apply Hix in Ev. }
    { exact L. }
    exists st'. split; [exact E|]. split; [exact L'|]. intros v Hv. rewrite Hs'.
    match goal with |- context[existsb ?f ?l] => set (ef := f); set (el := l) end.
    destruct (existsb ef el) eqn:Ex.
    + left. split; [reflexivity|]. apply existsb_exists in Ex as (p & Hp & Ep). unfold ef in Ep. destruct (nth_error index p) as [w|] eqn:Ew; [|discriminate]. apply Nat.eqb_eq in Ep. subst w.
      apply in_map_iff in Hp as (i & <- & Hi). apply in_seq in Hi. exists (i + off). split; [lia|]. split; [exact Ew|]. rewrite Nat.add_comm. apply (flag_pos k cl i Hk); fold ne; lia.
    + destruct (Hs v Hv) as [(H1 & p & Hp & H2 & H3)|(H1 & Hno)]; [left; split; [exact H1|]; exists p; split; [lia|auto]|].
      right. split; [exact H1|]. intros (p & Hp & H2 & H3). destruct (Nat.lt_ge_cases p off) as [Hlt|Hge]; [apply Hno; exists p; auto|].
      assert (existsb ef el = true); [|congruence]. apply existsb_exists. exists p. unfold ef. rewrite H2. split; [|apply Nat.eqb_refl].
      apply in_map_iff. exists (p - off). split; [lia|]. apply in_seq. split; [lia|]. cbn [plus]. apply (flag_pos k cl (p - off) Hk); [lia|]. fold off. replace (off + (p - off)) with p by lia. exact H3.
  - exists st. split; [exact E|]. split; [exact L|]. intros v Hv. assert (length lens = length lists) as Ll by apply map_length. rewrite <- Ll, firstn_all in Hs.
    assert (lsum lens = length all) as HL by (unfold lens, all, raw_all; clear; induction lists as [|x t IH]; [reflexivity|]; cbn [map concat]; rewrite lsum_cons, app_length; lia).
    destruct (Hs v Hv) as [(H1 & p & Hp & H2)|(H1 & H2)]; [left; eauto|]. right. split; [exact H1|]. intros (p & Hp & H3). apply H2. exists p. split; [|auto].
    rewrite HL, <- Hlen. now apply ne_lt in Hp.
Qed.
End Ghost.

(** ** The numbering of the entities of a rank *)
Section Main.
Variables (l2g : nat -> option Z) (etype : cell_type) (dim : nat) (lists : list cell_list).
Hypothesis Hty : (etype = Interval /\ dim = 1) \/ (etype = Triangle /\ dim = 2) \/ (etype = Quadrilateral /\ dim = 2).
Hypothesis OK : Forall (lists_ok l2g dim) lists.
Hypothesis Hn : (N.of_nat (length (instances etype dim lists)) < 2 ^ 32)%N.
Let all := raw_all etype dim lists.
Let keys := map snd (map (raw_row l2g etype dim) all).

Lemma raw_in r : In r all -> snd (raw_row l2g etype dim r) = isort Nat.leb (raw_verts dim r) /\ Permutation (raw_verts dim r) (fst (raw_row l2g etype dim r)) /\
  length (raw_verts dim r) = num_cell_vertices etype /\ Forall (fun v => (Z.of_nat v < 2 ^ 31)%Z) (raw_verts dim r).
Proof.
  intros Hr. unfold all, raw_all in Hr. apply in_concat in Hr as (rl & Hrl & Hr). apply in_map_iff in Hrl as (cl & <- & Hcl).
  unfold raw_list in Hr. apply in_concat in Hr as (rc & Hrc & Hr). apply in_map_iff in Hrc as ([c vs] & <- & Hc). apply in_map_iff in Hr as (e & <- & He). cbn [fst snd] in *.
  assert (nth_error (cl_cells cl) c = Some vs) as Ec.
  { apply In_nth_error in Hc as (p & Hp). rewrite combine_nth_error in Hp. destruct (nth_error (seq 0 (length (cl_cells cl))) p) as [q|] eqn:Eq; [|discriminate].
    destruct (nth_error (cl_cells cl) p) as [w|] eqn:Ew; [|discriminate]. injection Hp as -> ->. pose proof (ne_lt _ _ _ Ew). pose proof (nth_error_nth _ _ 0 Eq) as E. rewrite seq_nth in E by lia. cbn in E. now subst p. }
  rewrite Forall_forall in OK. exact (proj2 (raw_row_ok l2g etype dim Hty cl c vs e (OK cl Hcl) Ec He (c <? cl_owned cl))).
Qed.

Lemma local_entities_ok threads sched tsort : 0 < threads -> (forall l, Permutation (sched l) l) -> sorts_rows tsort ->
  exists order index count st, local_entities l2g etype dim lists threads sched tsort =
      Some (map fst (map (raw_row l2g etype dim) all), map (fun cl => raw_ents etype dim (cl_type cl)) lists, psums (map (fun cl => length (raw_list etype dim cl)) lists), index, count, st) /\
    length index = length all /\ Permutation (seq 0 (length keys)) order /\ numbered keys order index 0 count /\
    ghost_status lists (map (fun cl => raw_ents etype dim (cl_type cl)) lists) (psums (map (fun cl => length (raw_list etype dim cl)) lists)) index count = Some st /\
    length st = count /\
  forall v, v < count -> (nth_error st v = Some 0 /\ exists p, nth_error index p = Some v /\ flag_at etype dim lists p true) \/
                         (nth_error st v = Some 1 /\ ~ exists p, nth_error index p = Some v /\ flag_at etype dim lists p true).
Proof.
  intros Ht Hs Hts. unfold local_entities. destruct (Nat.eqb_spec dim 0) as [E|_]; [exfalso; intuition lia|].
  rewrite (build_rows_ok l2g etype dim Hty threads sched Ht Hs lists OK). cbn [obind]. fold all. fold keys.
  assert (length keys = length all) as Lk by (unfold keys; now rewrite !map_length).
  destruct (number_entities_ok (num_cell_vertices etype) keys threads tsort) as (order & index & count & E & L & Hp & Hnum).
  { intuition subst; cbn; lia. }
  { apply Forall_forall. intros k Hk. unfold keys in Hk. apply in_map_iff in Hk as (row & <- & Hr). apply in_map_iff in Hr as (r & <- & Hr).
    destruct (raw_in r Hr) as (H1 & H2 & H3 & H4). rewrite H1. split; [rewrite isort_length; exact H3|].
    rewrite Forall_forall in H4 |- *. intros v Hv. apply isort_in in Hv. auto. }
  { rewrite Lk. unfold all. rewrite instances_raw, map_length in Hn. exact Hn. }
  { exact Hts. }
  rewrite E. cbn [obind].
  destruct (ghost_ok etype dim lists index count) as (st & Es & Ls & Hst).
  { fold all. congruence. }
  { intros i v Ev. destruct Hnum as (H1 & _). destruct (H1 i) as (w & Ew & Hw); [rewrite <- Hp; apply in_seq; apply ne_lt in Ev; lia|]. rewrite Ew in Ev. injection Ev as <-. lia. }
  { eapply Forall_impl; [|exact OK]. intros cl Hcl. apply Hcl. }
  rewrite Es. cbn [obind]. exists order, index, count, st. split; [reflexivity|]. split; [congruence|]. auto.
Qed.

Lemma entities_spec threads sched tsort : 0 < threads -> (forall l, Permutation (sched l) l) -> sorts_rows tsort ->
  exists elists ents offsets index count st, local_entities l2g etype dim lists threads sched tsort = Some (elists, ents, offsets, index, count, st) /\
    length elists = length (instances etype dim lists) /\ length index = length (instances etype dim lists) /\ length st = count /\
    (forall i v o el, nth_error (instances etype dim lists) i = Some (v, o) -> nth_error elists i = Some el -> Permutation v el) /\
    (forall i j v w o o' n m, nth_error (instances etype dim lists) i = Some (v, o) -> nth_error (instances etype dim lists) j = Some (w, o') ->
       nth_error index i = Some n -> nth_error index j = Some m -> (n = m <-> Permutation v w)) /\
    (forall n, n < count <-> In n index) /\
    (forall n, n < count -> exists s, nth_error st n = Some s /\ s <= 1 /\
       (s = 0 <-> exists i v, nth_error (instances etype dim lists) i = Some (v, true) /\ nth_error index i = Some n)).
Proof.
  intros Ht Hs Hts. destruct (local_entities_ok threads sched tsort Ht Hs Hts) as (order & index & count & st & E & L & Hp & (H1 & H2 & H3) & _ & Ls & Hst).
  pose proof (instances_raw etype dim lists) as Hi. fold all in Hi.
  assert (length keys = length all) as Lk by (unfold keys; now rewrite !map_length).
  assert (Hin : forall i, In i order <-> i < length all) by (intro i; rewrite <- Hp, in_seq; lia).
  do 6 eexists. split; [exact E|]. rewrite Hi, !map_length. split; [reflexivity|]. split; [exact L|]. split; [exact Ls|]. split; [|split; [|split]].
  - intros i v o el Ei Ee. rewrite !nth_error_map in *. destruct (nth_error all i) as [r|] eqn:Er; [|discriminate]. cbn [option_map] in *.
    injection Ei as <- <-. injection Ee as <-. apply raw_in. now apply nth_error_In in Er.
  - intros i j v w o o' n m Ei Ej En Em. rewrite !nth_error_map in *. destruct (nth_error all i) as [ri|] eqn:Eri; [|discriminate]. destruct (nth_error all j) as [rj|] eqn:Erj; [|discriminate].
    cbn [option_map] in *. injection Ei as <- _. injection Ej as <- _. pose proof (ne_lt _ _ _ Eri) as Hil. pose proof (ne_lt _ _ _ Erj) as Hjl.
    assert (Ki : nth i keys [] = isort Nat.leb (raw_verts dim ri)).
    { rewrite <- (proj1 (raw_in ri (nth_error_In _ _ Eri))). apply nth_error_nth. unfold keys. now rewrite !nth_error_map, Eri. }
    assert (Kj : nth j keys [] = isort Nat.leb (raw_verts dim rj)).
    { rewrite <- (proj1 (raw_in rj (nth_error_In _ _ Erj))). apply nth_error_nth. unfold keys. now rewrite !nth_error_map, Erj. }
    rewrite <- sort_eq_perm, <- Ki, <- Kj.
    pose proof (H3 i j n m (proj2 (Hin i) Hil) (proj2 (Hin j) Hjl) En Em) as Hij. pose proof (H3 j i m n (proj2 (Hin j) Hjl) (proj2 (Hin i) Hil) Em En) as Hji.
    split.
    + intros <-. destruct (list_eq_dec Nat.eq_dec (nth i keys []) (nth j keys [])) as [e|N]; [exact e|]. exfalso.
      assert (row_le (nth i keys []) (nth j keys []) \/ row_le (nth j keys []) (nth i keys [])) as Htot.
      { clear. generalize (nth j keys []) as b. induction (nth i keys []) as [|x a IH]; intros [|y b]; cbn; auto. destruct (IH b), (Nat.lt_trichotomy x y) as [|[|]]; auto. }
      destruct Htot as [Ht1|Ht1]; [assert (n < n); [|lia]; apply Hij; split; auto|assert (n < n); [|lia]; apply Hji; split; auto].
    + intros Ek. destruct (Nat.lt_trichotomy n m) as [Hlt|[Heq|Hlt]]; [apply Hij in Hlt as [_ N]; contradiction|exact Heq|apply Hji in Hlt as [_ N]; congruence].
  - intros n. split.
    + intros Hlt. destruct (H2 n ltac:(lia)) as (i & _ & Ei). now apply nth_error_In in Ei.
    + intros Hi'. apply In_nth_error in Hi' as (i & Ei). destruct (H1 i) as (v & Ev & Hv); [apply Hin; apply ne_lt in Ei; lia|]. rewrite Ei in Ev. injection Ev as ->. lia.
  - intros n Hlt. assert (Hf : (exists i v, nth_error (map (fun r => (raw_verts dim r, snd (fst (fst r)))) all) i = Some (v, true) /\ nth_error index i = Some n) <->
       exists p, nth_error index p = Some n /\ flag_at etype dim lists p true).
    { split.
      - intros (i & v & Ei & En). exists i. split; [exact En|]. rewrite nth_error_map in Ei. destruct (nth_error all i) as [r|] eqn:Er; [|discriminate]. injection Ei as <- Eo. exists r. auto.
      - intros (p & En & r & Er & Eo). exists p, (raw_verts dim r). split; [|exact En]. rewrite nth_error_map. change (nth_error all p = Some r) in Er. rewrite Er. cbn [option_map]. now rewrite Eo. }
    destruct (Hst n Hlt) as [[E0 Hx]|[E1 Hx]].
    + exists 0. split; [exact E0|]. split; [lia|]. split; [intros _; now apply Hf|reflexivity].
    + exists 1. split; [exact E1|]. split; [lia|]. split; [discriminate|]. intros H. apply Hf in H. contradiction.
Qed.

Lemma entities_threads threads sched tsort threads' sched' tsort' :
  0 < threads -> (forall l, Permutation (sched l) l) -> sorts_rows tsort ->
  0 < threads' -> (forall l, Permutation (sched' l) l) -> sorts_rows tsort' ->
  local_entities l2g etype dim lists threads sched tsort = local_entities l2g etype dim lists threads' sched' tsort'.
Proof.
  intros H1 H2 H3 H1' H2' H3'. destruct (local_entities_ok _ _ _ H1 H2 H3) as (o & ix & c & st & E & L & Hp & Hnum & Hg & _).
  destruct (local_entities_ok _ _ _ H1' H2' H3') as (o' & ix' & c' & st' & E' & L' & Hp' & Hnum' & Hg' & _).
  assert (length keys = length all) as Lk by (unfold keys; now rewrite !map_length).
  destruct (numbered_unique keys o o' ix ix' c c' Hp Hp' ltac:(congruence) ltac:(congruence) Hnum Hnum') as [-> ->].
  rewrite Hg in Hg'. injection Hg' as ->. congruence.
Qed.
End Main.
