(** Proofs about the first half of [get_local_indexing]: what each rank knows and sends. *)
From Coq Require Import NArith.
From Verif Require Import Base BaseProofs BucketProofs Algo AlgoProofs TransProofs Nbx World WorldProofs IndexMap IndexMapSpec IndexMapProofs ImSharedProofs SparsityProofs Orient OrientProofs Entities EntitiesSpec NumberProofs LocalIndexing LocalIndexingSpec LiLemmas MatMulComm.
Open Scope nat_scope.

Lemma index_in_snoc x l y : index_in x (l ++ [y]) = match index_in x l with Some i => Some i | None => if x =? y then Some (length l) else None end.
Proof.
  induction l as [|z l IH]; cbn [index_in app length]; [destruct (x =? y); reflexivity|]. destruct (x =? z); [reflexivity|]. rewrite IH. destruct (index_in x l); cbn [obind]; [reflexivity|]. destruct (x =? y); reflexivity.
Qed.
Lemma first_instances_ok count ix : (forall x, In x ix -> x < count) -> first_instances count ix = Some (map (fun id => index_in id ix) (seq 0 count)).
Proof.
  intros H. unfold first_instances.
  match goal with |- ofold ?f _ ?s = _ => destruct (enum_ind f (fun i st => st = map (fun id => index_in id (firstn i ix)) (seq 0 count)) ix s) as (st & E & I) end.
  - cbn [firstn index_in]. rewrite map_const, seq_length. reflexivity.
  - intros i id st Hi ->. assert (id < count) as Hid by (apply H; eapply nth_error_In; eauto). cbn [fst snd].
    assert (firstn (S i) ix = firstn i ix ++ [id]) as EF by now apply firstn_S_nth.
    assert (length (firstn i ix) = i) as EL by (rewrite firstn_length; apply nth_error_bound in Hi; lia).
    rewrite nth_error_map, nth_error_seq by exact Hid. cbn [option_map obind plus]. destruct (index_in id (firstn i ix)) as [p|] eqn:Ep.
    + eexists. split; [reflexivity|]. apply map_ext. intros x. rewrite EF, index_in_snoc. destruct (index_in x (firstn i ix)) eqn:Ex; [reflexivity|]. destruct (Nat.eqb_spec x id) as [->|N]; [congruence|reflexivity].
    + destruct (upd_some (map (fun id => index_in id (firstn i ix)) (seq 0 count)) id (Some i)) as (l' & El'); [now rewrite map_length, seq_length|]. exists l'. split; [exact El'|].
      apply nth_error_ext. intros k. rewrite (upd_nth _ _ _ k _ El'). destruct (Nat.eqb_spec id k) as [<-|N].
      * rewrite nth_error_map, nth_error_seq by exact Hid. cbn [option_map plus]. rewrite EF, index_in_snoc, Ep, Nat.eqb_refl, EL. reflexivity.
      * rewrite !nth_error_map. destruct (Nat.lt_ge_cases k count) as [Hk|Hk].
        -- rewrite nth_error_seq by exact Hk. cbn [option_map plus]. rewrite EF, index_in_snoc. destruct (index_in k (firstn i ix)); [reflexivity|]. destruct (Nat.eqb_spec k id) as [->|_]; [contradiction|reflexivity].
        -- rewrite (proj2 (nth_error_None (seq 0 count) k)) by (rewrite seq_length; lia). reflexivity.
  - rewrite E, I, firstn_all. reflexivity.
Qed.
Lemma entity_count_ok ix N : (forall n, n < N <-> In n ix) -> entity_count ix = N.
Proof.
  intros H. destruct ix as [|x t]; cbn [entity_count].
  - destruct N; [reflexivity|]. exfalso. apply (proj1 (H 0)). lia.
  - assert (forall t x, In (fold_left Nat.max t x) (x :: t) /\ forall y, In y (x :: t) -> y <= fold_left Nat.max t x) as G.
    { clear. induction t as [|y t IH]; intros x; cbn [fold_left]; [split; [now left|]; intros y [<-|[]]; lia|]. destruct (IH (Nat.max x y)) as [H1 H2]. split.
      - destruct H1 as [E|H1]; [|right; now right]. rewrite <- E. destruct (Nat.max_dec x y) as [->| ->]; [now left|right; now left].
      - intros z [<-|[<-|Hz]]; [| |apply H2; now right]; (etransitivity; [|apply H2; now left]); lia. }
    destruct (G t x) as [G1 G2]. apply H in G1. destruct N as [|N]; [lia|]. specialize (G2 N (proj1 (H N) (Nat.lt_succ_diag_r N))). lia.
Qed.
Lemma ofold_filter {S A B} (p : A -> bool) (g : A -> B) (f : S -> B -> option S) l : forall st,
  ofold (fun st x => if p x then f st (g x) else Some st) l st = ofold f (map g (filter p l)) st.
Proof. induction l as [|x l IH]; intros st; [reflexivity|]. cbn [ofold filter]. destruct (p x); cbn [map ofold obind]; [|apply IH]. destruct (f st (g x)); cbn [obind]; auto. Qed.
Lemma push_map {A} (F : nat -> list A) nb q x : NoDup nb -> In q nb ->
  exists i, index_in q nb = Some i /\ push_back (map F nb) i x = Some (map (fun q' => F q' ++ if q' =? q then [x] else []) nb).
Proof.
  intros Hnd Hq. destruct (index_in_in q nb Hq) as (i & Ei). exists i. split; [exact Ei|]. apply index_in_some in Ei. pose proof (nth_error_bound _ _ _ Ei) as Hi.
  unfold push_back. destruct (modify_some (map F nb) i (fun b => b ++ [x])) as (l' & El'); [now rewrite map_length|]. rewrite El'. f_equal. apply nth_error_ext. intros k.
  rewrite (modify_nth _ _ _ k _ El'), nth_error_map, nth_error_map. destruct (nth_error nb k) as [q'|] eqn:Ek; cbn [option_map]; [|destruct (i =? k); reflexivity].
  destruct (Nat.eqb_spec i k) as [<-|N].
  - assert (q' = q) as -> by congruence. rewrite Nat.eqb_refl. reflexivity.
  - destruct (Nat.eqb_spec q' q) as [->|_]; [|rewrite app_nil_r; reflexivity]. exfalso. apply N. eapply NoDup_nth_error_inj; eauto.
Qed.
Lemma forallb_perm {A} (p : A -> bool) l l' : Permutation l l' -> forallb p l = forallb p l'.
Proof. induction 1; cbn [forallb]; [reflexivity|congruence| |congruence]. destruct (p x), (p y); reflexivity. Qed.
Lemma forallb_const_and {A} (b : bool) (p : A -> bool) l : l <> [] -> forallb (fun x => b && p x) l = b && forallb p l.
Proof. intros H. destruct b; [reflexivity|]. destruct l; [contradiction|reflexivity]. Qed.
Lemma forallb_map {A B} (f : A -> B) (p : B -> bool) l : forallb p (map f l) = forallb (fun x => p (f x)) l.
Proof. induction l; cbn; congruence. Qed.

Lemma filter_length_le {A} (p : A -> bool) l : length (filter p l) <= length l.
Proof. induction l as [|x l IH]; cbn [filter length]; [lia|]. destruct (p x); cbn [length]; lia. Qed.

Section Li.
Variables (P : nat) (nbx : (nat -> list nat) -> nat -> list nat) (maps : nat -> imap) (nv : nat) (inp : nat -> li_input).
Hypothesis Hnbx : nbx_oracle P nbx.
Hypothesis Hok : maps_ok P maps.
Hypothesis OK : li_ok P maps nv inp.

Notation c r := (length (li_ghost (inp r))).
Notation nb := (nbrs P nbx maps).
Definition st (r id : nat) : nat := nth id (li_ghost (inp r)) 0.
Definition rowof (r id : nat) : list nat := match index_in id (li_index (inp r)) with Some i => nth i (li_list (inp r)) [] | None => [] end.
Definition l2gd (r v : nat) : nat := match local_to_global (maps r) v with Some g => g | None => 0 end.
Definition gv (r id : nat) : list nat := isort Nat.leb (map (l2gd r) (rowof r id)).
Definition holdsb (q g : nat) : bool := (im_lo (maps q) <=? g) && (g <? im_hi (maps q)) || mem g (im_ghosts (maps q)).
Definition sharers (r id : nat) : list nat := filter (fun q => negb (q =? r) && forallb (holdsb q) (gv r id)) (seq 0 P).
Definition sent (s d : nat) : list nat := filter (fun id => negb (st s id =? 1) && forallb (holdsb d) (gv s id)) (seq 0 (c s)).

Lemma l2g_ex r v : r < P -> v < size_local (maps r) + num_ghosts (maps r) <-> exists g, local_to_global (maps r) v = Some g.
Proof. intros Hr. symmetry. apply l2g_some. now apply (mo_range _ _ Hok). Qed.
Lemma count_is r : r < P -> entity_count (li_index (inp r)) = c r.
Proof. intros Hr. apply entity_count_ok. intros n. now apply (lk_count _ _ _ _ OK). Qed.
Lemma id_pos r id : r < P -> id < c r -> exists i, index_in id (li_index (inp r)) = Some i /\ nth_error (li_index (inp r)) i = Some id /\ nth_error (li_list (inp r)) i = Some (rowof r id).
Proof.
  intros Hr Hid. apply (lk_count _ _ _ _ OK) in Hid; [|exact Hr]. destruct (index_in_in _ _ Hid) as (i & Ei). exists i. split; [exact Ei|]. pose proof (index_in_some _ _ _ Ei) as Hi. split; [exact Hi|].
  unfold rowof. rewrite Ei. apply nth_error_nth'. rewrite <- (lk_len _ _ _ _ OK r Hr). eapply nth_error_bound; eauto.
Qed.
Lemma row_ok r row : r < P -> In row (li_list (inp r)) -> omap (local_to_global (maps r)) row = Some (map (l2gd r) row).
Proof.
  intros Hr Hin. apply omap_map. intros v Hv. destruct (lk_rows _ _ _ _ OK r row Hr Hin) as [_ H]. apply H in Hv. apply (l2g_ex r _ Hr) in Hv as (g & E). unfold l2gd. now rewrite E.
Qed.
Lemma rowof_in r id : r < P -> id < c r -> In (rowof r id) (li_list (inp r)).
Proof. intros Hr Hid. destruct (id_pos r id Hr Hid) as (i & _ & _ & H). eapply nth_error_In; eauto. Qed.
Lemma ent_gv r i id : r < P -> nth_error (li_index (inp r)) i = Some id -> forall e, ent (maps r) (inp r) i e <-> e = gv r id.
Proof.
  intros Hr Hi e. assert (id < c r) as Hid by (apply (lk_count _ _ _ _ OK); [exact Hr|eapply nth_error_In; eauto]).
  destruct (id_pos r id Hr Hid) as (p & _ & Hp & Hrow).
  destruct (nth_error_lt (li_list (inp r)) i) as (row & Ei); [rewrite <- (lk_len _ _ _ _ OK r Hr); eapply nth_error_bound; eauto|].
  assert (Permutation row (rowof r id)) as Hperm by (apply (lk_index _ _ _ _ OK r i p _ _ id id Hr Ei Hrow Hi Hp); reflexivity).
  assert (isort Nat.leb (map (l2gd r) row) = gv r id) as E by (apply nsort_perm_eq, Permutation_map, Hperm).
  split.
  - intros (row' & g & E1 & E2 & E3 & E4). assert (row' = row) as -> by congruence. rewrite (row_ok r row Hr) in E2 by (eapply nth_error_In; eauto). injection E2 as <-. rewrite <- E. symmetry. now apply nsort_unique.
  - intros ->. exists row, (map (l2gd r) row). split; [exact Ei|]. split; [apply row_ok; [exact Hr|eapply nth_error_In; eauto]|]. rewrite <- E. split; [apply isort_perm|apply nsort_sorted].
Qed.
Lemma gv_inj r a b : r < P -> a < c r -> b < c r -> gv r a = gv r b -> a = b.
Proof.
  intros Hr Ha Hb E. destruct (id_pos r a Hr Ha) as (i & _ & Hi & Ri). destruct (id_pos r b Hr Hb) as (j & _ & Hj & Rj).
  apply (lk_index _ _ _ _ OK r i j _ _ a b Hr Ri Rj Hi Hj).
  assert (Permutation (map (l2gd r) (rowof r a)) (map (l2gd r) (rowof r b))) as Hp.
  { unfold gv in E. etransitivity; [apply isort_perm|]. rewrite E. symmetry. apply isort_perm. }
  apply (Permutation_map (fun g => Z.to_nat (global_to_local (maps r) g))) in Hp. rewrite !map_map in Hp.
  assert (forall row, In row (li_list (inp r)) -> map (fun x => Z.to_nat (global_to_local (maps r) (l2gd r x))) row = row) as G.
  { intros row Hin. rewrite <- (map_id row) at 2. apply map_ext_in. intros v Hv. destruct (lk_rows _ _ _ _ OK r row Hr Hin) as [_ H]. apply H in Hv. apply (l2g_ex r _ Hr) in Hv as (g & Eg). unfold l2gd. rewrite Eg.
    rewrite (g2l_l2g (maps r) (mo_range _ _ Hok r Hr) (mo_once _ _ Hok r Hr) (fun g => ghost_not_owned P maps Hok r g Hr) _ _ Eg). apply Nat2Z.id. }
  rewrite !G in Hp by (eapply nth_error_In; eauto). exact Hp.
Qed.
Lemma gv_len r id : r < P -> id < c r -> length (gv r id) = nv.
Proof. intros Hr Hid. unfold gv. rewrite isort_length, map_length. apply (lk_rows _ _ _ _ OK r _ Hr), rowof_in; assumption. Qed.
Lemma gv_in r id g : r < P -> id < c r -> In g (gv r id) -> exists v, local_to_global (maps r) v = Some g.
Proof.
  intros Hr Hid Hg. unfold gv in Hg. apply isort_in in Hg. apply in_map_iff in Hg as (v & <- & Hv). destruct (lk_rows _ _ _ _ OK r _ Hr (rowof_in r id Hr Hid)) as [_ H]. apply H in Hv. apply (l2g_ex r _ Hr) in Hv as (g & E). exists v. unfold l2gd. now rewrite E.
Qed.
Lemma holds_iff q g : holdsb q g = true <-> exists v, local_to_global (maps q) v = Some g.
Proof using Type.
  unfold holdsb. rewrite orb_true_iff, andb_true_iff, Nat.leb_le, Nat.ltb_lt, mem_iff. split.
  - intros [H|H].
    + exists (g - im_lo (maps q)). unfold local_to_global, size_local. destruct (Nat.ltb_spec (g - im_lo (maps q)) (im_hi (maps q) - im_lo (maps q))); [|lia]. f_equal. lia.
    + apply In_nth_error in H as (k & Hk). exists (size_local (maps q) + k). unfold local_to_global. destruct (Nat.ltb_spec (size_local (maps q) + k) (size_local (maps q))); [lia|]. rewrite <- Hk. f_equal. lia.
  - intros (v & E). unfold local_to_global in E. destruct (Nat.ltb_spec v (size_local (maps q))) as [H|H].
    + left. injection E as <-. unfold size_local in H. lia.
    + right. eapply nth_error_In; eauto.
Qed.
Lemma gv_held r id : r < P -> id < c r -> forallb (holdsb r) (gv r id) = true.
Proof. intros Hr Hid. apply forallb_forall. intros g Hg. apply holds_iff. eapply gv_in; eauto. Qed.

Lemma i2d_ok r : r < P -> exists data offsets, index_to_dest_ranks P nbx maps r = Some (data, offsets) /\
  (forall v g, local_to_global (maps r) v = Some g -> slice_at data offsets v = Some (filter (fun q => negb (q =? r) && holdsb q g) (seq 0 P))) /\
  (forall q, In q data <-> q < P /\ q <> r /\ exists v g, local_to_global (maps r) v = Some g /\ holdsb q g = true).
Proof.
  intros Hr. destruct (i2d_full P maps Hok nbx Hnbx r Hr) as (rows & E & EL & R1 & R2). do 2 eexists. split; [exact E|].
  assert (R : forall v g, local_to_global (maps r) v = Some g -> nth_error rows v = Some (filter (fun q => negb (q =? r) && holdsb q g) (seq 0 P))).
  { intros v g Eg. unfold local_to_global in Eg. destruct (Nat.ltb_spec v (size_local (maps r))) as [Hv|Hv].
    - injection Eg as <-. rewrite R1 by exact Hv. f_equal. apply filter_ext_in. intros q Hq. apply in_seq in Hq.
      assert (owns (maps r) (im_lo (maps r) + v)) as Ho by (unfold owns, size_local in *; lia). unfold holdsb.
      destruct (Nat.eqb_spec q r) as [->|N]; cbn [negb andb].
      + destruct (mem _ _) eqn:Em; [|reflexivity]. apply mem_iff in Em. exfalso. exact (ghost_not_owned P maps Hok r _ Hr Em Ho).
      + destruct ((im_lo (maps q) <=? im_lo (maps r) + v) && (im_lo (maps r) + v <? im_hi (maps q))) eqn:Eo; [|reflexivity]. exfalso. apply N. apply andb_true_iff in Eo as [A B]. apply Nat.leb_le in A. apply Nat.ltb_lt in B. apply (owner_unique P maps Hok q r (im_lo (maps r) + v)); [lia|exact Hr|unfold owns; lia|exact Ho].
    - set (k := v - size_local (maps r)) in *. destruct (nth_error_lt (im_owners (maps r)) k) as (o & Eo); [rewrite (mo_len _ _ Hok r Hr); eapply nth_error_bound; eauto|].
      replace v with (size_local (maps r) + k) by (unfold k; lia). rewrite (R2 k g o Eg Eo). unfold see_ghost. f_equal. apply filter_ext_in. intros q Hq. apply in_seq in Hq.
      destruct (mo_owner _ _ Hok r k g o Hr Eg Eo) as (Ho & _ & Ow). f_equal. unfold holdsb. f_equal. apply eq_true_iff_eq. rewrite Nat.eqb_eq, andb_true_iff, Nat.leb_le, Nat.ltb_lt. split; [intros ->; exact Ow|].
      intros H. apply (owner_unique P maps Hok q o g); [lia|exact Ho|exact H|exact Ow]. }
  split.
  - intros v g Eg. apply slice_at_concat. now apply R.
  - intros q. rewrite in_concat. split.
    + intros (l & Hl & Hq). apply In_nth_error in Hl as (v & Ev). pose proof (nth_error_bound _ _ _ Ev) as Hv. rewrite EL in Hv. apply (l2g_ex r _ Hr) in Hv as (g & Eg). pose proof (R v g Eg). assert (l = filter (fun q => negb (q =? r) && holdsb q g) (seq 0 P)) as -> by congruence.
      apply filter_In in Hq as [H1 H2]. apply in_seq in H1. apply andb_true_iff in H2 as [H2 H3]. split; [lia|]. split; [intros ->; now rewrite Nat.eqb_refl in H2|eauto].
    + intros (Hq & N & v & g & Eg & Hh). eexists. split; [eapply nth_error_In; apply (R v g Eg)|]. apply filter_In. split; [apply in_seq; lia|]. rewrite Hh, andb_true_r. now destruct (Nat.eqb_spec q r).
Qed.
Lemma nb_sorted r : StronglySorted lt (nb r).
Proof using Type. unfold nbrs. destruct (index_to_dest_ranks P nbx maps r) as [[data o]|]; cbn [obind or_nil]; [apply sort_uniq_sorted|constructor]. Qed.
Lemma nb_in r q : r < P -> In q (nb r) <-> q < P /\ q <> r /\ exists v g, local_to_global (maps r) v = Some g /\ holdsb q g = true.
Proof. intros Hr. unfold nbrs. destruct (i2d_ok r Hr) as (data & offsets & E & _ & H). rewrite E. cbn [obind or_nil]. rewrite sort_uniq_in. apply H. Qed.
Lemma nb_graph : graph_ok P nb nb.
Proof.
  assert (forall r q, r < P -> In q (nb r) -> q < P /\ In r (nb q)) as H.
  { intros r q Hr Hq. apply nb_in in Hq as (H1 & H2 & v & g & E & Hh); [|exact Hr]. split; [exact H1|]. apply nb_in; [exact H1|]. split; [exact Hr|]. split; [congruence|]. apply holds_iff in Hh as (v' & E'). exists v', g. split; [exact E'|]. apply holds_iff. eauto. }
  intros r Hr. split; [apply SS_lt_NoDup, nb_sorted|]. split; [apply SS_lt_NoDup, nb_sorted|]. split; intros q; (split; [now apply H|intros [H1 H2]; now apply H in H2]).
Qed.
Lemma sharer_nb r id q : r < P -> id < c r -> In q (sharers r id) -> In q (nb r).
Proof.
  intros Hr Hid Hq. unfold sharers in Hq. apply filter_In in Hq as [H1 H2]. apply in_seq in H1. apply andb_true_iff in H2 as [H2 H3]. apply nb_in; [exact Hr|]. split; [lia|]. split; [intros ->; now rewrite Nat.eqb_refl in H2|].
  pose proof (gv_len r id Hr Hid) as L. pose proof (lk_nv _ _ _ _ OK). destruct (gv r id) as [|g t] eqn:Eg; [cbn in L; lia|]. destruct (gv_in r id g Hr Hid) as (v & Ev); [rewrite Eg; now left|]. exists v, g. split; [exact Ev|]. cbn in H3. now apply andb_true_iff in H3.
Qed.

Definition e2l_of (r n : nat) : list erow := concat (map (fun id => repeat (gv r id, id) (length (sharers r id))) (seq 0 n)).
Definition sends_of (r n q : nat) : list erow := map (fun id => (gv r id, id)) (filter (fun id => negb (st r id =? 1) && mem q (sharers r id)) (seq 0 n)).

Lemma push_sharers r id qs : r < P -> forall F e2l, NoDup qs -> (forall q, In q qs -> In q (nb r)) ->
  ofold (fun s q => let e2l := fst s ++ [(gv r id, id)] in
           if st r id =? 1 then Some (e2l, snd s)
           else i <- find_sorted (nb r) q ;; sends <- push_back (snd s) i (gv r id, id) ;; Some (e2l, sends)) qs (e2l, map F (nb r))
  = Some (e2l ++ repeat (gv r id, id) (length qs), map (fun q => F q ++ if negb (st r id =? 1) && mem q qs then [(gv r id, id)] else []) (nb r)).
Proof using Type.
  intros Hr. induction qs as [|q qs IH]; intros F e2l Hnd Hin.
  - cbn [ofold length repeat mem existsb]. rewrite app_nil_r. do 2 f_equal. apply map_ext. intros q. rewrite andb_false_r, app_nil_r. reflexivity.
  - inversion Hnd as [|? ? Hq Hnd']; subst. cbn [ofold fst snd]. rewrite find_sorted_spec by apply nb_sorted.
    destruct (push_map F (nb r) q (gv r id, id)) as (i & Ei & Ep); [apply SS_lt_NoDup, nb_sorted|apply Hin; now left|].
    rewrite Ei. cbn [obind]. rewrite Ep. cbn [obind]. destruct (st r id =? 1) eqn:Es; cbn [obind negb andb].
    + rewrite IH; [|exact Hnd'|intros; apply Hin; now right]. cbn [negb andb length repeat]. rewrite <- app_assoc. reflexivity.
    + rewrite IH; [|exact Hnd'|intros; apply Hin; now right]. cbn [negb andb length repeat]. rewrite <- app_assoc. do 2 f_equal. apply map_ext. intros q'. rewrite <- app_assoc. f_equal.
      unfold mem. cbn [existsb]. fold (mem q' qs). destruct (Nat.eqb_spec q' q) as [->|N]; cbn [orb]; [|reflexivity]. destruct (mem q qs) eqn:Em; [apply mem_iff in Em; contradiction|reflexivity].
Qed.

Lemma gather_entity_ok r n data offsets fi : r < P -> n < c r ->
  (forall v g, local_to_global (maps r) v = Some g -> slice_at data offsets v = Some (filter (fun q => negb (q =? r) && holdsb q g) (seq 0 P))) ->
  fi = map (fun id => index_in id (li_index (inp r))) (seq 0 (c r)) ->
  gather_entity (maps r) data offsets (nb r) nv (inp r) fi (e2l_of r n, map (sends_of r n) (nb r)) n = Some (e2l_of r (S n), map (sends_of r (S n)) (nb r)).
Proof.
  intros Hr Hn Hsl ->. unfold gather_entity. rewrite nth_error_map, nth_error_seq by exact Hn. cbn [option_map obind plus].
  destruct (id_pos r n Hr Hn) as (p & -> & Hp & Hrow). cbn [obind]. rewrite Hrow. cbn [obind].
  pose proof (rowof_in r n Hr Hn) as Hin. destruct (lk_rows _ _ _ _ OK r _ Hr Hin) as [Hlen Hval].
  rewrite (omap_map _ (fun v => filter (fun q => negb (q =? r) && holdsb q (l2gd r v)) (seq 0 P))).
  2:{ intros v Hv. apply Hval in Hv. apply (l2g_ex r _ Hr) in Hv as (g & E). unfold l2gd. rewrite E. now apply Hsl. }
  cbn [obind]. destruct (all_sharers (fun v q => negb (q =? r) && holdsb q (l2gd r v)) (rowof r n) P) as (rn & -> & Ern).
  { intros E. rewrite E in Hlen. pose proof (lk_nv _ _ _ _ OK). cbn in Hlen. lia. }
  cbn [obind]. rewrite (row_ok r _ Hr Hin). cbn [obind].
  assert (nth_error (li_ghost (inp r)) n = Some (st r n)) as -> by (apply nth_error_nth'; exact Hn). cbn [obind].
  rewrite (ofold_filter (fun xn : nat * nat => snd xn =? nv) fst (fun s q => let e2l := fst s ++ [(gv r n, n)] in
           if st r n =? 1 then Some (e2l, snd s)
           else i <- find_sorted (nb r) q ;; sends <- push_back (snd s) i (gv r n, n) ;; Some (e2l, sends))).
  rewrite Hlen in Ern. rewrite Ern.
  assert (filter (fun q => forallb (fun v => negb (q =? r) && holdsb q (l2gd r v)) (rowof r n)) (seq 0 P) = sharers r n) as ->.
  { apply filter_ext. intros q. rewrite forallb_const_and by (intros E; rewrite E in Hlen; pose proof (lk_nv _ _ _ _ OK); cbn in Hlen; lia). f_equal.
    rewrite <- (forallb_map (l2gd r) (holdsb q)). apply forallb_perm. apply isort_perm. }
  rewrite push_sharers; [|exact Hr|apply NoDup_filter, seq_NoDup|intros q; now apply sharer_nb].
  unfold e2l_of, sends_of. rewrite seq_S. cbn [plus]. rewrite map_app, concat_app. cbn [map concat]. rewrite app_nil_r. do 2 f_equal. apply map_ext. intros q. rewrite filter_app, map_app. cbn [filter]. destruct (negb (st r n =? 1) && mem q (sharers r n)); reflexivity.
Qed.

Lemma sends_sent r q : r < P -> In q (nb r) -> sends_of r (c r) q = map (fun id => (gv r id, id)) (sent r q).
Proof.
  intros Hr Hq. unfold sends_of, sent. f_equal. apply filter_ext_in. intros id _. f_equal. apply eq_true_iff_eq. rewrite mem_iff. unfold sharers. rewrite filter_In, in_seq, andb_true_iff.
  apply nb_in in Hq as (H1 & H2 & _); [|exact Hr]. split; [tauto|]. intros H. split; [lia|]. split; [|exact H]. now destruct (Nat.eqb_spec q r).
Qed.

(** The number of an entity with these vertices, if a rank has it *)
Definition lookup (r : nat) (e : list nat) : option nat := find (fun i => row_eqb (gv r i) e) (seq 0 (c r)).
Lemma lookup_some r e i : r < P -> lookup r e = Some i <-> i < c r /\ gv r i = e.
Proof.
  intros Hr. unfold lookup. split.
  - intros H. apply find_some in H as [H1 H2]. apply in_seq in H1. apply row_eqb_iff in H2. split; [lia|exact H2].
  - intros [Hi <-]. destruct (find _ _) as [j|] eqn:E.
    + apply find_some in E as [H1 H2]. apply in_seq in H1. apply row_eqb_iff in H2. f_equal. apply (gv_inj r); [exact Hr|lia|exact Hi|exact H2].
    + exfalso. pose proof (find_none _ _ E i (proj2 (in_seq _ _ _) (conj (Nat.le_0_l i) Hi))) as H. cbn in H. rewrite (proj2 (row_eqb_iff _ _) eq_refl) in H. discriminate.
Qed.

Lemma gathered_ok r : r < P -> exists e2l perm,
  gathered P nbx maps nv inp r = Some (e2l, perm, map (fun q => map (fun id => (gv r id, id)) (sent r q)) (nb r)) /\
  forall s id, s < P -> s <> r -> id < c s -> find_entity e2l perm (gv s id) = lookup r (gv s id).
Proof.
  intros Hr. unfold gathered. destruct (i2d_ok r Hr) as (data & offsets & -> & Hsl & _). cbn [obind]. rewrite (count_is r Hr).
  rewrite first_instances_ok by (intros x Hx; now apply (lk_count _ _ _ _ OK)). cbn [obind].
  set (fi := map _ _).
  destruct (seq_ind (gather_entity (maps r) data offsets (nb r) nv (inp r) fi) (fun n s => n <= c r /\ s = (e2l_of r n, map (sends_of r n) (nb r))) (c r) ([], repeat [] (length (nb r)))) as (s & E & _ & ->).
  - split; [lia|]. unfold e2l_of, sends_of. cbn. f_equal. now rewrite map_const.
  - intros n s Hn [_ ->]. eexists. split; [apply gather_entity_ok; [exact Hr|exact Hn|exact Hsl|reflexivity]|]. split; [lia|reflexivity].
  - rewrite E. cbn [obind].
    assert (M : forall e i, In (e, i) (e2l_of r (c r)) <-> i < c r /\ e = gv r i /\ sharers r i <> []).
    { intros e i. unfold e2l_of. rewrite in_concat. split.
      - intros (l & Hl & Hi). apply in_map_iff in Hl as (id & <- & Hid). apply in_seq in Hid. pose proof (repeat_spec _ _ _ Hi) as Eq. injection Eq as -> ->. split; [lia|]. split; [reflexivity|]. intros E0. rewrite E0 in Hi. destruct Hi.
      - intros (Hi & -> & Hs). eexists. split; [apply in_map_iff; exists i; split; [reflexivity|apply in_seq; lia]|]. destruct (sharers r i); [contradiction|]. now left. }
    destruct (sorted_entities_ok nv (e2l_of r (c r))) as (perm & -> & F1 & F2).
    + intros e i H. apply M in H as (Hi & -> & _). now apply gv_len.
    + intros e i j H1 H2. apply M in H1 as (Hi & -> & _). apply M in H2 as (Hj & E0 & _). now apply (gv_inj r).
    + intros e i H. apply M in H as (Hi & -> & _). constructor.
      * pose proof (lk_size _ _ _ _ OK r Hr). assert (c r <= c r * P) by (destruct P; [lia|rewrite Nat.mul_succ_r; lia]). lia.
      * apply Forall_forall. intros g Hg. destruct (gv_in r i g Hr Hi Hg) as (v & Ev). eapply (lk_global _ _ _ _ OK); eauto.
    + pose proof (lk_size _ _ _ _ OK r Hr). assert (length (e2l_of r (c r)) <= c r * P); [|lia]. unfold e2l_of. generalize (c r) as n. clear. induction n as [|n IH]; [cbn; lia|].
      rewrite seq_S, map_app, concat_app, app_length. cbn [map concat plus]. rewrite app_nil_r, repeat_length. unfold sharers at 2. pose proof (filter_length_le (fun q => negb (q =? r) && forallb (holdsb q) (gv r n)) (seq 0 P)) as H. rewrite seq_length in H. cbn [Nat.mul]. lia.
    + apply (lk_nv _ _ _ _ OK).
    + cbn [obind]. do 2 eexists. split; [do 2 f_equal; apply map_ext_in; intros q Hq; now apply sends_sent|].
      intros s id Hs Hsr Hid. destruct (lookup r (gv s id)) as [i|] eqn:El.
      * apply lookup_some in El as [Hi Ei]; [|exact Hr]. apply F1. apply M. split; [exact Hi|]. split; [congruence|]. intros E0. assert (In s (sharers r i)) as Hin; [|rewrite E0 in Hin; destruct Hin].
        unfold sharers. apply filter_In. split; [apply in_seq; lia|]. rewrite Ei, (gv_held s id Hs Hid), andb_true_r. now destruct (Nat.eqb_spec s r).
      * apply F2. intros i Hi. apply M in Hi as (Hi & Eg & _). assert (lookup r (gv s id) = Some i) by (apply lookup_some; auto). congruence.
Qed.
End Li.
