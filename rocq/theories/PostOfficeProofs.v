(** Proofs for C09. *)
From Verif Require Import Base BaseProofs BucketProofs Algo AlgoProofs World WorldProofs Ranges RangesProofs
  IndexMap IndexMapSpec IndexMapProofs ImSharedProofs ScattererProofs SubMap RoundTrip StackProofs PostOffice.
Open Scope nat_scope.

(** * Stable sort by rank and runs *)
Definition grp {V} (b : nat -> list V) (k : nat) : list (nat * V) := map (pair k) (b k).

Lemma grp_in {V} (b : nat -> list V) ks p : In p (concat (map (grp b) ks)) -> In (fst p) ks.
Proof.
  intro H. apply in_concat in H as (l & Hl & H). apply in_map_iff in Hl as (k & <- & Hk).
  apply in_map_iff in H as (v & <- & _). exact Hk.
Qed.

Lemma insert_pass {A} (leb : A -> A -> bool) x l m : (forall y, In y l -> leb x y = false) ->
  insert leb x (l ++ m) = l ++ insert leb x m.
Proof.
  induction l as [|y t IH]; intro H; [reflexivity|]. cbn. rewrite (H y (or_introl eq_refl)). f_equal. apply IH.
  intros; apply H; now right.
Qed.

Lemma insert_front {A} (leb : A -> A -> bool) x l : (forall y, In y l -> leb x y = true) -> insert leb x l = x :: l.
Proof. destruct l as [|y t]; intro H; [reflexivity|]. cbn. now rewrite (H y (or_introl eq_refl)). Qed.

Lemma insert_grp {V} (b : nat -> list V) k v ks : StronglySorted lt ks -> In k ks ->
  insert (fun a c => fst a <=? fst c) (k, v) (concat (map (grp b) ks))
  = concat (map (grp (fun j => if j =? k then v :: b j else b j)) ks).
Proof.
  induction 1 as [|j ks Hs IH Hj]; intro Hin; [destruct Hin|]. rewrite Forall_forall in Hj. cbn [map concat].
  destruct (Nat.eqb_spec j k) as [E|N]; [subst j|].
  - rewrite insert_front.
    + assert (E1 : grp (fun j => if j =? k then v :: b j else b j) k = (k, v) :: grp b k) by (unfold grp; now rewrite Nat.eqb_refl).
      rewrite E1. cbn [app]. f_equal. f_equal. f_equal.
      apply map_ext_in. intros j Hj'. unfold grp. specialize (Hj j Hj'). destruct (Nat.eqb_spec j k); [lia|reflexivity].
    + intros y Hy. apply Nat.leb_le. cbn [fst]. apply in_app_iff in Hy as [Hy|Hy].
      * unfold grp in Hy. apply in_map_iff in Hy as (w & <- & _). cbn. lia.
      * apply grp_in in Hy. specialize (Hj _ Hy). lia.
  - destruct Hin as [E|Hin]; [contradiction|]. rewrite insert_pass; [rewrite IH by exact Hin|].
    + f_equal. unfold grp. destruct (Nat.eqb_spec j k); [contradiction|reflexivity].
    + intros y Hy. unfold grp in Hy. apply in_map_iff in Hy as (w & <- & _). cbn [fst]. apply Nat.leb_gt. now apply Hj.
Qed.

Lemma ksort_groups {V} ks (l : list (nat * V)) : StronglySorted lt ks -> (forall p, In p l -> In (fst p) ks) ->
  ksort l = concat (map (grp (fun k => vals k l)) ks).
Proof.
  intros Hs. induction l as [|[k v] t IH]; intro Hin.
  - unfold ksort, grp. cbn. symmetry. clear Hin. induction ks as [|k ks IHk]; [reflexivity|]. cbn. apply IHk. now inversion Hs.
  - change (ksort ((k, v) :: t)) with (insert (fun a c => fst a <=? fst c) (k, v) (ksort t)).
    rewrite IH by (intros; apply Hin; now right). rewrite insert_grp; [|exact Hs|exact (Hin (k, v) (or_introl eq_refl))].
    f_equal. apply map_ext. intro j. unfold grp, vals. cbn [filter fst]. rewrite (Nat.eqb_sym k j).
    destruct (j =? k); reflexivity.
Qed.

Lemma prefix_grp {V} (b : nat -> list V) k rest : (forall p, In p rest -> fst p <> k) ->
  prefix_len (fun y : nat * V => fst y =? k) (grp b k ++ rest) = length (b k).
Proof.
  intro H. rewrite prefix_len_app.
  - unfold grp. rewrite map_length. destruct rest as [|p t]; [cbn; lia|].
    rewrite prefix_len_stop; [lia|]. apply Nat.eqb_neq, H. now left.
  - intros p Hp. apply in_map_iff in Hp as (v & <- & _). apply Nat.eqb_refl.
Qed.

Lemma key_runs_groups {V} (b : nat -> list V) ks fuel : NoDup ks -> (forall k, In k ks -> b k <> []) ->
  length (concat (map (grp b) ks)) <= fuel ->
  key_runs fuel (concat (map (grp b) ks)) = Some (map (fun k => (k, b k)) ks).
Proof.
  revert fuel; induction ks as [|k ks IH]; intros fuel Hn Hb Hf; [now destruct fuel|].
  inversion Hn as [|? ? Hk Hn']; subst. cbn [map concat] in *.
  assert (Hne := Hb k (or_introl eq_refl)).
  assert (Hp := prefix_grp b k (concat (map (grp b) ks))).
  assert (Hr : forall p, In p (concat (map (grp b) ks)) -> fst p <> k) by (intros p H E; apply grp_in in H; congruence).
  specialize (Hp Hr). rewrite app_length in Hf.
  assert (El : length (grp b k) = length (b k)) by (unfold grp; apply map_length).
  assert (E : exists v' t, grp b k ++ concat (map (grp b) ks) = (k, v') :: t).
  { unfold grp at 1. destruct (b k) as [|v' t]; [contradiction|]. cbn. eauto. }
  destruct E as (v' & t & E). destruct fuel as [|fuel].
  { destruct (b k); [contradiction|]. cbn in El. lia. }
  rewrite E. cbn [key_runs]. rewrite <- E. rewrite Hp, <- El.
  rewrite skipn_app, skipn_all, Nat.sub_diag, firstn_app, firstn_all, Nat.sub_diag. cbn [skipn firstn app].
  rewrite app_nil_r. rewrite IH; auto.
  - cbn [obind]. unfold grp. rewrite map_map, map_id. reflexivity.
  - intros; apply Hb; now right.
  - destruct (b k); [contradiction|]. cbn in El. lia.
Qed.

Lemma key_runs_spec {V} (l : list (nat * V)) :
  let ks := sort_uniq (map fst l) in
  ksort l = concat (map (grp (fun k => vals k l)) ks) /\
  key_runs (length (ksort l)) (ksort l) = Some (map (fun k => (k, vals k l)) ks).
Proof.
  intro ks. assert (E : ksort l = concat (map (grp (fun k => vals k l)) ks)).
  { apply ksort_groups; [apply sort_uniq_sorted|]. intros p Hp. apply sort_uniq_in, in_map, Hp. }
  split; [exact E|]. rewrite E. apply key_runs_groups; [apply sort_uniq_NoDup| |reflexivity].
  intros k Hk Hv. unfold ks in Hk. apply (proj1 (sort_uniq_in _ _)) in Hk. apply in_map_iff in Hk as ([k' v] & Ek & Hk). cbn in Ek; subst k'.
  apply vals_in in Hk. rewrite Hv in Hk. destruct Hk.
Qed.

Lemma sort_uniq_elim l y : In y (sort_uniq l) -> In y l.
Proof. apply sort_uniq_in. Qed.

(** * The world *)
Section World.
Context {A : Type}.
Variables (zero : A) (P : nat) (nbx0 nbx1 : (nat -> list nat) -> nat -> list nat).
Hypothesis Hnbx0 : nbx_oracle P nbx0.
Hypothesis Hnbx1 : nbx_oracle P nbx1.
Variables (x : nat -> list A) (off : nat -> option nat) (N : nat) (indices : nat -> list nat).
Hypothesis HP : 0 < P.
(** The global array. *)
Variable X : list A.
Hypothesis HX : length X = N.
Notation offs q := (match off q with Some o => o | None => 0 end).
Hypothesis Hoff : forall q i, q < P -> i < length (x q) ->
  off q = Some (offs q) /\ i + offs q < N /\ nth_error (x q) i = nth_error X (i + offs q).
Hypothesis Huniq : forall q q' i i', q < P -> q' < P -> i < length (x q) -> i' < length (x q') ->
  i + offs q = i' + offs q' -> q = q'.
Hypothesis Hcov : forall g, g < N -> exists q i, q < P /\ i < length (x q) /\ g = i + offs q.
Hypothesis Hind : forall q g, q < P -> In g (indices q) -> g < N.

Definition own (g : nat) : nat := match owner_of P N g with Some o => o | None => 0 end.
Lemma owner_ok g : g < N -> owner_of P N g = Some (own g) /\ own g < P /\
  fst (po_range P (own g) N) <= g < snd (po_range P (own g) N).
Proof.
  clear - HP. intro Hg. unfold own, owner_of. destruct (Nat.ltb_spec g N) as [_|]; [|lia].
  destruct (index_owner_spec (Z.of_nat P) (Z.of_nat g) (Z.of_nat N)) as (o & Eo & Ho & Hr); [lia|lia|].
  rewrite Eo. cbn [obind]. split; [reflexivity|]. split; [lia|]. unfold po_range. rewrite Z2Nat.id by lia.
  destruct (local_range o (Z.of_nat N) (Z.of_nat P)) as [a b]. cbn [fst snd] in *. lia.
Qed.

Lemma own_iff g r : g < N -> r < P -> (own g = r <-> fst (po_range P r N) <= g < snd (po_range P r N)).
Proof.
  clear - HP. intros Hg Hr. split; [intros <-; now apply owner_ok|]. intro H. unfold own, owner_of. destruct (Nat.ltb_spec g N) as [_|]; [|lia].
  replace (index_owner (Z.of_nat P) (Z.of_nat g) (Z.of_nat N)) with (Some (Z.of_nat r)); [cbn [obind]; apply Nat2Z.id|].
  symmetry. apply index_owner_iff; [lia|lia|]. split; [lia|]. unfold po_range in H.
  destruct (local_range (Z.of_nat r) (Z.of_nat N) (Z.of_nat P)) as [a b]. cbn [fst snd] in *. lia.
Qed.

(** ** Rows sent to the post offices *)
Definition d2i (q : nat) : list (nat * nat) :=
  concat (map (fun i => if own (i + offs q) =? q then [] else [(own (i + offs q), i)]) (seq 0 (length (x q)))).
Definition dests (q : nat) : list nat := sort_uniq (map fst (d2i q)).

Lemma in_d2i q d i : In (d, i) (d2i q) <-> i < length (x q) /\ d = own (i + offs q) /\ d <> q.
Proof.
  unfold d2i. rewrite in_concat. split.
  - intros (l & Hl & H). apply in_map_iff in Hl as (j & <- & Hj). apply in_seq in Hj.
    destruct (Nat.eqb_spec (own (j + offs q)) q) as [E|Nq]; [destruct H|]. destruct H as [H|[]]. injection H as <- <-. repeat split; auto. lia.
  - intros (Hi & -> & Hd). eexists. split; [apply in_map_iff; exists i; split; [reflexivity|apply in_seq; lia]|].
    destruct (Nat.eqb_spec (own (i + offs q)) q); [contradiction|now left].
Qed.

Lemma NoDup_snd_d2i q : NoDup (map snd (d2i q)).
Proof.
  unfold d2i. rewrite concat_map, map_map. apply NoDup_concat; [apply seq_NoDup| |].
  - intros i _. destruct (_ =? q); cbn; [constructor|]. constructor; [intros []|constructor].
  - intros i j k _ _ Hi Hj. destruct (own (i + offs q) =? q); [destruct Hi|]. destruct (own (j + offs q) =? q); [destruct Hj|].
    cbn in *. intuition congruence.
Qed.

Lemma vals_d2i_NoDup q d : NoDup (vals d (d2i q)).
Proof.
  unfold vals. pose proof (NoDup_snd_d2i q) as H. revert H. induction (d2i q) as [|[a b] t IH]; [constructor|].
  cbn [map filter fst snd]. intro H. inversion_clear H as [|? ? Hb Ht]. destruct (a =? d); cbn; [|auto]. constructor; [|auto].
  intro Hc. apply Hb. apply in_map_iff in Hc as (p & <- & Hp). apply filter_In in Hp as (Hp & _). now apply in_map.
Qed.

Lemma plan_ok q : q < P -> exists pos,
  plan P x off N q = Some (dests q, map (fun d => length (vals d (d2i q))) (dests q), pos) /\
  length pos = length (x q) /\
  forall i, i < length (x q) -> nth_error pos i
    = Some (if own (i + offs q) =? q then None else index_in (own (i + offs q)) (dests q)).
Proof.
  intro Hq. unfold plan, postoffice_plan.
  rewrite omap_map with (g := fun i => if own (i + offs q) =? q then [] else [(own (i + offs q), i)]).
  2:{ intros i Hi. apply in_seq in Hi. destruct (Hoff q i Hq) as (-> & Hg & _); [lia|]. cbn [obind].
      destruct (owner_ok _ Hg) as (-> & _). reflexivity. }
  cbn [obind]. fold (d2i q). destruct (key_runs_spec (d2i q)) as (_ & ->). fold (dests q). cbn [obind].
  rewrite map_length.
  assert (Ef : forall pos0, ofold (fun pos (nr : nat * (nat * list nat)) => ofold (fun pos i => upd pos i (Some (fst nr))) (snd (snd nr)) pos)
      (combine (seq 0 (length (dests q))) (map (fun k => (k, vals k (d2i q))) (dests q))) pos0
    = ofold (fun v pg => upd v (fst pg) (snd pg))
        (concat (map (fun nr : nat * (nat * list nat) => map (fun i => (i, Some (fst nr))) (snd (snd nr)))
          (combine (seq 0 (length (dests q))) (map (fun k => (k, vals k (d2i q))) (dests q))))) pos0).
  { intro pos0. rewrite <- StackProofs.ofold_nested. apply ofold_ext. intros s nr Hnr. now rewrite ofold_map. }
  rewrite Ef. clear Ef.
  set (L := combine (seq 0 (length (dests q))) (map (fun k => (k, vals k (d2i q))) (dests q))).
  assert (HL : forall k e, In (k, e) L -> nth_error (dests q) k = Some (fst e) /\ snd e = vals (fst e) (d2i q)).
  { intros k e H. apply in_combine_nth in H as (j & Hj & He). pose proof (nth_error_bound _ _ _ Hj) as Hb. rewrite seq_length in Hb.
    rewrite nth_error_seq in Hj by exact Hb. injection Hj as <-.
    rewrite nth_error_map_some in He. destruct (nth_error (dests q) j) as [d|] eqn:Ed; [|discriminate]. injection He as <-. cbn. auto. }
  destruct (upd_all_spec (concat (map (fun nr : nat * (nat * list nat) => map (fun i => (i, Some (fst nr))) (snd (snd nr))) L))
                         (repeat None (length (x q)))) as (pos & E & Hl & H1 & H2).
  - rewrite concat_map, map_map. apply NoDup_concat.
    + apply (NoDup_map_inv fst). unfold L. rewrite map_fst_combine by (rewrite map_length, seq_length; lia). apply seq_NoDup.
    + intros [k e] H. apply HL in H as (_ & E). cbn [fst snd]. rewrite map_map. cbn. rewrite map_id, E. apply vals_d2i_NoDup.
    + intros [k e] [k' e'] i H H' Hi Hi'. cbn [fst snd] in *. rewrite map_map in Hi, Hi'. cbn in Hi, Hi'. rewrite map_id in Hi, Hi'.
      destruct (HL _ _ H) as (G & E). destruct (HL _ _ H') as (G' & E'). rewrite E in Hi. rewrite E' in Hi'.
      apply vals_in in Hi, Hi'. apply in_d2i in Hi as (_ & Hi & _). apply in_d2i in Hi' as (_ & Hi' & _).
      assert (Ek : fst e = fst e') by congruence. rewrite Ek in G. assert (k = k') by (eapply NoDup_nth_error_inj; eauto; apply sort_uniq_NoDup).
      subst k'. destruct e as [a b], e' as [a' b']. cbn in *. subst. reflexivity.
  - intros i v H. rewrite repeat_length. apply in_concat in H as (l & Hl & H). apply in_map_iff in Hl as ([k e] & <- & Hk).
    apply in_map_iff in H as (j & Ej & Hj). cbn [fst snd] in *. injection Ej as -> _. apply HL in Hk as (_ & E). rewrite E in Hj.
    apply vals_in, in_d2i in Hj. apply Hj.
  - rewrite E. cbn [obind]. exists pos. split.
    + rewrite !map_map. cbn [fst snd]. rewrite map_id. reflexivity.
    + split; [rewrite Hl; apply repeat_length|]. intros i Hi. destruct (Nat.eqb_spec (own (i + offs q)) q) as [Eo|No].
      * rewrite H2; [apply nth_error_repeat; exact Hi|]. intro Hc. rewrite concat_map, map_map in Hc.
        apply in_concat in Hc as (l & Hl' & Hc). apply in_map_iff in Hl' as ([k e] & <- & Hk). cbn [fst snd] in Hc. rewrite map_map in Hc.
        cbn in Hc. rewrite map_id in Hc. apply HL in Hk as (_ & E'). rewrite E' in Hc. apply vals_in, in_d2i in Hc as (_ & -> & Hc). contradiction.
      * assert (Hd : In (own (i + offs q), i) (d2i q)) by (apply in_d2i; auto).
        destruct (index_in_in (own (i + offs q)) (dests q)) as (k & Ek); [apply sort_uniq_in, in_map_iff; now exists (own (i + offs q), i)|].
        rewrite Ek. apply H1. apply in_concat. eexists. split; [apply in_map_iff; exists (k, (own (i + offs q), vals (own (i + offs q)) (d2i q))); split; [reflexivity|]|].
        -- apply index_in_some in Ek. eapply nth_error_In with (n := k). unfold L. 
           assert (G : forall {B C} (a : list B) (b : list C) n u w, nth_error a n = Some u -> nth_error b n = Some w -> nth_error (combine a b) n = Some (u, w)).
           { intros B C. induction a as [|? a IH]; intros [|? b] [|n] u w; cbn; intros; try discriminate; auto; congruence. }
           apply G; [now rewrite nth_error_seq by (eapply nth_error_bound; eauto)|]. rewrite nth_error_map_some, Ek. reflexivity.
        -- cbn [fst snd]. apply in_map_iff. exists i. split; [reflexivity|]. now apply vals_in.
Qed.

Definition B (q d : nat) : list (nat * A) := map (fun i => (i + offs q, nth i (x q) zero)) (vals d (d2i q)).

Lemma po_send_ok q : q < P ->
  po_send zero P x off N q = Some (concat (map (B q) (dests q)),
    (map (fun d => length (B q d)) (dests q), psums (map (fun d => length (B q d)) (dests q)))).
Proof.
  intro Hq. unfold po_send. destruct (plan_ok q Hq) as (pos & -> & Hl & Hpos). cbn [obind].
  assert (El : map (fun d => length (vals d (d2i q))) (dests q) = map (fun d => length (B q d)) (dests q)).
  { apply map_ext. intro d. unfold B. now rewrite map_length. }
  rewrite El.
  set (ki := fun i => match index_in (own (i + offs q)) (dests q) with Some k => k | None => 0 end).
  set (kvs := fun i => if own (i + offs q) =? q then [] else [(ki i, (i + offs q, nth i (x q) zero))]).
  assert (Hki : forall i, i < length (x q) -> own (i + offs q) <> q ->
     index_in (own (i + offs q)) (dests q) = Some (ki i) /\ nth_error (dests q) (ki i) = Some (own (i + offs q))).
  { intros i Hi No. unfold ki. destruct (index_in_in (own (i + offs q)) (dests q)) as (k & Ek).
    - apply sort_uniq_in, in_map_iff. exists (own (i + offs q), i). split; [reflexivity|]. apply in_d2i. auto.
    - rewrite Ek. split; [reflexivity|]. now apply index_in_some. }
  rewrite omap_map with (g := kvs).
  2:{ intros i Hi. apply in_seq in Hi. rewrite (Hpos i) by lia. rewrite (nth_error_nth_some (x q) i zero) by lia.
      destruct (Hoff q i Hq) as (-> & _); [lia|]. cbn [obind]. f_equal. unfold kvs.
      destruct (Nat.eqb_spec (own (i + offs q)) q) as [E|No]; [reflexivity|]. destruct (Hki i) as (-> & _); [lia|exact No|]. reflexivity. }
  cbn [obind].
  assert (Hv : forall k d, nth_error (dests q) k = Some d -> vals k (concat (map kvs (seq 0 (length (x q))))) = B q d).
  { intros k d Hk. unfold B, d2i.
    assert (G : forall l, (forall i, In i l -> i < length (x q)) ->
      vals k (concat (map kvs l)) = map (fun i => (i + offs q, nth i (x q) zero))
        (vals d (concat (map (fun i => if own (i + offs q) =? q then [] else [(own (i + offs q), i)]) l)))).
    { induction l as [|i t IH]; intro Hi; [reflexivity|]. cbn [map concat]. rewrite !vals_app, map_app, IH by (intros; apply Hi; now right).
      f_equal. unfold kvs. destruct (Nat.eqb_spec (own (i + offs q)) q) as [E|No]; [reflexivity|].
      rewrite !vals_one. cbn [fst snd]. destruct (Hki i) as (_ & Hn); [apply Hi; now left|exact No|].
      destruct (Nat.eqb_spec (ki i) k) as [Ek|Nk].
      - rewrite Ek, Hk in Hn. injection Hn as ->. rewrite Nat.eqb_refl. reflexivity.
      - destruct (Nat.eqb_spec (own (i + offs q)) d) as [Ed|Nd]; [|reflexivity]. exfalso. apply Nk. rewrite Ed in Hn.
        eapply NoDup_nth_error_inj; eauto. apply sort_uniq_NoDup. }
    apply G. intros i Hi. apply in_seq in Hi. lia. }
  assert (Hf : Forall (fun kv => fst kv < length (dests q)) (concat (map kvs (seq 0 (length (x q)))))).
  { apply Forall_forall. intros kv H. apply in_concat in H as (l & Hl' & H). apply in_map_iff in Hl' as (i & <- & Hi). apply in_seq in Hi.
    unfold kvs in H. destruct (Nat.eqb_spec (own (i + offs q)) q) as [E|No]; [destruct H|]. destruct H as [<-|[]]. cbn.
    destruct (Hki i) as (_ & Hn); [lia|exact No|]. eapply nth_error_bound; eauto. }
  assert (Em : map (fun k => vals k (concat (map kvs (seq 0 (length (x q)))))) (seq 0 (length (dests q))) = map (B q) (dests q)).
  { apply map_seq_nth. exact Hv. }
  assert (Es : map (fun k => length (vals k (concat (map kvs (seq 0 (length (x q))))))) (seq 0 (length (dests q))) = map (fun d => length (B q d)) (dests q)).
  { apply map_seq_nth. intros k d Hk. f_equal. now apply Hv. }
  destruct (place_all (length (dests q)) (concat (map kvs (seq 0 (length (x q)))))
              (psums (map (fun d => length (B q d)) (dests q)))
              (repeat (0, zero) (last (psums (map (fun d => length (B q d)) (dests q))) 0)) Hf) as (pos' & -> & _).
  - intros k Hk. unfold offk. rewrite Es. apply psums_nth. rewrite map_length. lia.
  - rewrite repeat_length, last_psums, <- (vals_map_seq_total (length (dests q)) _ Hf), Em, <- lsum_concat_length, map_map. reflexivity.
  - cbn [obind]. rewrite Em. reflexivity.
Qed.

Lemma plan_dest_ok q : q < P -> plan_dest P x off N q = dests q.
Proof. intro Hq. unfold plan_dest. destruct (plan_ok q Hq) as (pos & -> & _). reflexivity. Qed.

Lemma dests_in q d : q < P -> In d (dests q) -> d < P /\ d <> q.
Proof.
  intros Hq H. apply sort_uniq_elim in H. apply in_map_iff in H as ([d' i] & E & H). cbn in E; subst d'.
  apply in_d2i in H as (Hi & -> & Hn). split; [|exact Hn]. destruct (Hoff q i Hq Hi) as (_ & Hg & _).
  now destruct (owner_ok _ Hg) as (_ & H & _).
Qed.

(** The communication graph made by the consensus. *)
Lemma oracle_graph nbx ds : nbx_oracle P nbx -> (forall q, q < P -> NoDup (ds q)) ->
  (forall q d, q < P -> In d (ds q) -> d < P) -> graph_ok P (fun q => nbx ds q) ds.
Proof.
  clear. intros Hn Hnd Hlt r Hr. repeat split.
  - now apply Hnd.
  - pose proof (oracle_sorted P nbx ds r Hn Hr Hnd) as E.
    eapply Permutation_NoDup; [apply Permutation_sym, (isort_perm _ Nat.leb)|]. rewrite E. apply NoDup_filter, seq_NoDup.
  - eapply Hlt; eauto.
  - apply (oracle_in P nbx ds d r Hn); [eapply Hlt; eauto|]. auto.
  - intros (Hd & Hin). apply (oracle_in P nbx ds d r Hn Hd) in Hin. apply Hin.
  - apply (oracle_in P nbx ds r s Hn Hr) in H. apply H.
  - apply (oracle_in P nbx ds r s Hn Hr) in H. apply H.
  - intros H. now apply (oracle_in P nbx ds r s Hn Hr).
Qed.

Lemma graph_ext s d s' d' : (forall q, q < P -> s q = s' q) -> (forall q, q < P -> d q = d' q) -> graph_ok P s d -> graph_ok P s' d'.
Proof.
  clear. intros Hs Hd H r Hr. destruct (H r Hr) as (H1 & H2 & H3 & H4). rewrite <- (Hd r Hr), <- (Hs r Hr). repeat split; auto.
  - now apply H3.
  - apply H3 in H0 as (Hp & H0). now rewrite <- Hs.
  - intros (Hp & H0). apply H3. rewrite Hs by exact Hp. auto.
  - now apply H4.
  - apply H4 in H0 as (Hp & H0). now rewrite <- Hd.
  - intros (Hp & H0). apply H4. rewrite Hd by exact Hp. auto.
Qed.

Lemma post_graph : graph_ok P (post_src P nbx0 x off N) (plan_dest P x off N).
Proof.
  unfold post_src. apply oracle_graph; [exact Hnbx0| |].
  - intros q Hq. rewrite plan_dest_ok by exact Hq. apply sort_uniq_NoDup.
  - intros q d Hq. rewrite plan_dest_ok by exact Hq. apply dests_in, Hq.
Qed.

Definition bag (r : nat) : list (nat * A) := concat (map (fun s => B s r) (post_src P nbx0 x off N r)).

Lemma bag_in r g a : r < P -> In (g, a) (bag r) <-> g < N /\ own g = r /\ nth_error X g = Some a /\ (forall i, i < length (x r) -> g <> i + offs r).
Proof.
  intro Hr. unfold bag. rewrite in_concat. split.
  - intros (l & Hl & H). apply in_map_iff in Hl as (s & <- & Hs). apply post_graph in Hs as (Hs & _); [|exact Hr].
    unfold B in H. apply in_map_iff in H as (i & E & Hi). injection E as <- <-. apply vals_in, in_d2i in Hi as (Hi & E & Hn).
    destruct (Hoff s i Hs Hi) as (_ & Hg & Hx). repeat split; auto.
    + rewrite <- Hx. now apply nth_error_nth_some.
    + intros j Hj Eg. apply Hn. exact (Huniq r s j i Hr Hs Hj Hi (eq_sym Eg)).
  - intros (Hg & Ho & Hx & Hno). destruct (Hcov g Hg) as (s & i & Hs & Hi & E). exists (B s r).
    assert (Hin : In (r, i) (d2i s)).
    { apply in_d2i. split; [exact Hi|]. split; [now rewrite <- E|]. intros ->. now apply (Hno i). }
    split.
    + apply in_map_iff. exists s. split; [reflexivity|]. apply post_graph; [exact Hr|]. split; [exact Hs|].
      rewrite plan_dest_ok by exact Hs. apply sort_uniq_in, in_map_iff. now exists (r, i).
    + unfold B. apply in_map_iff. exists i. split; [|now apply vals_in]. rewrite E. f_equal.
      destruct (Hoff s i Hs Hi) as (_ & _ & Hx'). rewrite <- E, Hx in Hx'. apply nth_error_nth. exact Hx'.
Qed.

Lemma bag_NoDup r : r < P -> NoDup (map fst (bag r)).
Proof.
  intro Hr. unfold bag. rewrite concat_map, map_map. apply NoDup_concat.
  - apply post_graph, Hr.
  - intros s _. unfold B. rewrite map_map. cbn [fst]. apply NoDup_map_inj; [apply vals_d2i_NoDup|]. intros; lia.
  - intros s s' g Hs Hs' H H'. apply post_graph in Hs as (Hs & _); [|exact Hr]. apply post_graph in Hs' as (Hs' & _); [|exact Hr].
    unfold B in H, H'. rewrite map_map in H, H'. cbn [fst] in H, H'. apply in_map_iff in H as (i & E & Hi). apply in_map_iff in H' as (j & E' & Hj).
    apply vals_in, in_d2i in Hi as (Hi & _). apply vals_in, in_d2i in Hj as (Hj & _). eapply Huniq; eauto. congruence.
Qed.

Notation lo r := (fst (po_range P r N)).
Notation hi r := (snd (po_range P r N)).

Lemma postoffice_exchange_ok r : r < P ->
  postoffice_exchange zero P x off N (post_src P nbx0 x off N) r = Some (map (fun p => fst p - lo r) (bag r), map snd (bag r)).
Proof.
  intro Hr. unfold postoffice_exchange.
  rewrite (exchange_spec P _ _ _ B r post_graph Hr).
  - cbn [obind]. fold (bag r). rewrite omap_map with (g := fun p => fst p - lo r); [reflexivity|].
    intros [g a] H. apply (bag_in r g a Hr) in H as (Hg & Ho & _). destruct (owner_ok g Hg) as (_ & _ & H). rewrite Ho in H.
    cbn [fst]. destruct (Nat.leb_spec (lo r) g); [reflexivity|lia].
  - intros s Hs. apply post_graph in Hs as (Hs & _); [|exact Hr]. rewrite plan_dest_ok by exact Hs. now apply po_send_ok.
Qed.

Lemma combine_nth_in {C D} (a : list C) (b : list D) u w : In (u, w) (combine a b) <-> exists i, nth_error a i = Some u /\ nth_error b i = Some w.
Proof.
  clear. split; [apply in_combine_nth|]. intros (i & Hu & Hw). revert b i Hu Hw.
  induction a as [|c a IH]; intros [|d b] [|i] Hu Hw; cbn in *; try discriminate.
  - injection Hu as ->. injection Hw as ->. now left.
  - right. eauto.
Qed.

(** Looking up in the bag. *)
Lemma from_bag_ok r : r < P -> exists pm,
  post_indices_map P N r (map (fun p => fst p - lo r) (bag r)) = Some pm /\
  forall g, g < N -> own g = r -> (forall i, i < length (x r) -> g <> i + offs r) ->
    from_bag P N r pm (map snd (bag r)) g = nth_error X g.
Proof.
  intro Hr. unfold post_indices_map, from_bag. destruct (po_range P r N) as [a b] eqn:Er. cbn [fst].
  assert (Hr' : forall p, In p (bag r) -> a <= fst p < b).
  { intros [g v] H. apply (bag_in r g v Hr) in H as (Hg & Ho & _). destruct (owner_ok g Hg) as (_ & _ & H). rewrite Ho, Er in H. exact H. }
  rewrite map_length.
  destruct (upd_all_spec (combine (map (fun p => fst p - a) (bag r)) (map Some (seq 0 (length (bag r))))) (repeat None (b - a)))
    as (pm & E & Hl & H1 & H2).
  - rewrite map_fst_combine by (rewrite !map_length, seq_length; lia).
    rewrite <- (map_map fst (fun g => g - a)). apply NoDup_map_inj; [now apply bag_NoDup|].
    intros u w Hu Hw. apply in_map_iff in Hu as (p & <- & Hp). apply in_map_iff in Hw as (p' & <- & Hp').
    pose proof (Hr' p Hp); pose proof (Hr' p' Hp'); lia.
  - intros i v H. rewrite repeat_length. apply in_combine_l in H. apply in_map_iff in H as (p & <- & Hp). specialize (Hr' p Hp). lia.
  - exists pm. split; [exact E|]. intros g Hg Ho Hno. destruct (nth_error X g) as [v|] eqn:Ev.
    2:{ apply nth_error_None in Ev. lia. }
    assert (Hb : In (g, v) (bag r)) by (apply bag_in; auto). pose proof (Hr' _ Hb) as Hrg. cbn [fst] in Hrg.
    destruct (Nat.leb_spec a g); [|lia]. apply In_nth_error in Hb as (k & Hk).
    rewrite (H1 (g - a) (Some k)).
    + cbn [obind]. rewrite nth_error_map_some, Hk. reflexivity.
    + apply combine_nth_in. exists k. rewrite !nth_error_map_some, Hk. split; [reflexivity|].
      rewrite nth_error_seq by (eapply nth_error_bound; eauto). reflexivity.
Qed.

(** ** Requests *)
Lemma held_ok q g : q < P -> match held (off q) (length (x q)) g with
  | Some l => l < length (x q) /\ g = l + offs q
  | None => forall i, i < length (x q) -> g <> i + offs q
  end.
Proof.
  intro Hq. unfold held. destruct (off q) as [o|] eqn:Eo.
  - destruct (Nat.leb_spec o g), (Nat.ltb_spec g (o + length (x q))); cbn [andb]; intros; lia.
  - intros i Hi. destruct (Hoff q i Hq Hi) as (E & _). congruence.
Qed.

Definition reqs (q : nat) : list (nat * (nat * nat)) :=
  concat (map (fun i => let g := nth i (indices q) 0 in
    match held (off q) (length (x q)) g with Some _ => [] | None => if own g =? q then [] else [(own g, (g, i))] end)
    (seq 0 (length (indices q)))).
Definition srcs (q : nat) : list nat := sort_uniq (map fst (reqs q)).

Lemma reqs_in q s g i : q < P -> In (s, (g, i)) (reqs q) <->
  nth_error (indices q) i = Some g /\ s = own g /\ s <> q /\ held (off q) (length (x q)) g = None.
Proof.
  intro Hq. unfold reqs. rewrite in_concat. split.
  - intros (l & Hl & H). apply in_map_iff in Hl as (j & <- & Hj). apply in_seq in Hj. cbn zeta in H.
    destruct (held (off q) (length (x q)) (nth j (indices q) 0)) eqn:Eh; [destruct H|].
    destruct (Nat.eqb_spec (own (nth j (indices q) 0)) q) as [E|No]; [destruct H|]. destruct H as [H|[]]. injection H as <- <- <-.
    repeat split; auto. apply nth_error_nth_some. lia.
  - intros (Hi & -> & Hs & Hh). eexists. split; [apply in_map_iff; exists i; split; [reflexivity|apply in_seq; apply nth_error_bound in Hi; lia]|].
    cbn zeta. rewrite (nth_error_nth _ _ _ Hi), Hh. destruct (Nat.eqb_spec (own g) q); [contradiction|now left].
Qed.

Lemma src_to_index_ok q : q < P -> src_to_index P x off N indices q = Some (ksort (reqs q)).
Proof.
  intro Hq. unfold src_to_index. rewrite omap_map with (g := fun i => let g := nth i (indices q) 0 in
    match held (off q) (length (x q)) g with Some _ => [] | None => if own g =? q then [] else [(own g, (g, i))] end).
  - reflexivity.
  - intros i Hi. apply in_seq in Hi. rewrite (nth_error_nth_some (indices q) i 0) by lia. cbn [obind]. cbn zeta.
    destruct (held (off q) (length (x q)) (nth i (indices q) 0)); [reflexivity|].
    destruct (owner_ok (nth i (indices q) 0)) as (-> & _); [apply (Hind q); [exact Hq|apply nth_In; lia]|]. reflexivity.
Qed.

Notation C q s := (vals s (reqs q)).

Lemma requests_ok q : q < P -> requests P x off N indices q = Some (srcs q, sendval (srcs q) (fun s => C q s)).
Proof.
  intro Hq. unfold requests. rewrite src_to_index_ok by exact Hq. cbn [obind].
  destruct (key_runs_spec (reqs q)) as (E & ->). fold (srcs q) in *. cbn [obind]. rewrite !map_map. cbn [fst snd]. rewrite map_id.
  unfold sendval. rewrite E, !concat_map, !map_map. unfold grp.
  assert (E1 : map (fun k => map (fun e : nat * (nat * nat) => fst (snd e)) (map (pair k) (C q k))) (srcs q) = map (fun s => map fst (C q s)) (srcs q)).
  { apply map_ext. intro. now rewrite map_map. }
  assert (E2 : map (fun k => map (fun e : nat * (nat * nat) => snd (snd e)) (map (pair k) (C q k))) (srcs q) = map (fun s => map snd (C q s)) (srcs q)).
  { apply map_ext. intro. now rewrite map_map. }
  assert (E3 : map (fun k => length (C q k)) (srcs q) = map (fun s => length (map fst (C q s))) (srcs q)).
  { apply map_ext. intro. now rewrite map_length. }
  rewrite E1, E2, E3. reflexivity.
Qed.

Lemma req_src_ok q : q < P -> req_src P x off N indices q = srcs q.
Proof. intro Hq. unfold req_src. now rewrite requests_ok. Qed.
Lemma req_send_ok q : q < P -> req_send P x off N indices q = Some (sendval (req_src P x off N indices q) (fun s => C q s)).
Proof. intro Hq. unfold req_send. rewrite req_src_ok, requests_ok by exact Hq. reflexivity. Qed.

Lemma req_graph : graph_ok P (req_dest P nbx1 x off N indices) (req_src P x off N indices).
Proof.
  unfold req_dest. apply oracle_graph; [exact Hnbx1| |].
  - intros q Hq. rewrite req_src_ok by exact Hq. apply sort_uniq_NoDup.
  - intros q d Hq. rewrite req_src_ok by exact Hq. intro H. apply sort_uniq_elim in H. apply in_map_iff in H as ([d' [g i]] & E & H).
    cbn in E; subst d'. apply reqs_in in H as (Hi & -> & _); [|exact Hq]. apply nth_error_In in Hi.
    destruct (owner_ok g) as (_ & H & _); [exact (Hind q g Hq Hi)|exact H].
Qed.

Notation F := (fun (_ : nat) g => nth g X zero).

Lemma answers_ok r : r < P -> answers zero P nbx0 nbx1 x off N indices r =
  Some (concat (map (fun q => map (F r) (map fst (C q r))) (req_dest P nbx1 x off N indices r)),
        map (fun q => length (map fst (C q r))) (req_dest P nbx1 x off N indices r)).
Proof.
  intro Hr. unfold answers. rewrite postoffice_exchange_ok by exact Hr. cbn [obind].
  rewrite (forward_ok P (req_src P x off N indices) (req_dest P nbx1 x off N indices) _ (fun q s => C q s) req_graph req_send_ok r Hr).
  cbn [obind]. destruct (from_bag_ok r Hr) as (pm & -> & Hpm). cbn [obind].
  rewrite omap_concat with (g := F r).
  - cbn [obind]. rewrite map_map. reflexivity.
  - intros l g Hl Hg. apply in_map_iff in Hl as (q & <- & Hq). apply req_graph in Hq as (Hq & _); [|exact Hr].
    apply in_map_iff in Hg as ([g' i] & E & Hg). cbn in E; subst g'. apply vals_in, reqs_in in Hg as (Hi & Ho & _); [|exact Hq].
    apply nth_error_In in Hi. specialize (Hind q g Hq Hi).
    assert (Hx : nth_error X g = Some (nth g X zero)) by (apply nth_error_nth_some; lia). rewrite <- Hx.
    pose proof (held_ok r g Hr) as Hh. destruct (held (off r) (length (x r)) g) as [l|].
    + destruct Hh as (Hl & ->). now apply Hoff.
    + apply Hpm; auto.
Qed.

Lemma reqs_pos_NoDup q : q < P -> NoDup (concat (map (fun s => map snd (C q s)) (srcs q))).
Proof.
  intro Hq. apply NoDup_concat; [apply sort_uniq_NoDup| |].
  - intros s _. assert (G : NoDup (map (fun e => snd (snd e)) (reqs q))).
    { unfold reqs. rewrite concat_map, map_map. apply NoDup_concat; [apply seq_NoDup| |].
      - intros i _. cbn zeta. destruct (held _ _ _); [constructor|]. destruct (_ =? q); cbn; [constructor|]. constructor; [intros []|constructor].
      - intros i j k _ _ Hi Hj. cbn zeta in *. destruct (held (off q) (length (x q)) (nth i (indices q) 0)); [destruct Hi|].
        destruct (held (off q) (length (x q)) (nth j (indices q) 0)); [destruct Hj|].
        destruct (own (nth i (indices q) 0) =? q); [destruct Hi|]. destruct (own (nth j (indices q) 0) =? q); [destruct Hj|].
        cbn in *. intuition congruence. }
    unfold vals. revert G. induction (reqs q) as [|[a [b c]] t IH]; [constructor|].
    cbn [map filter fst snd]. intro H. inversion_clear H as [|? ? Hb Ht]. destruct (a =? s); cbn [map]; [|auto]. constructor; [|auto].
    intro Hc. apply Hb. rewrite map_map in Hc. apply in_map_iff in Hc as (p & Ep & Hp). apply filter_In in Hp as (Hp & _). apply in_map_iff. exists p. auto.
  - intros s s' i _ _ H H'. apply in_map_iff in H as ([g j] & E & H). apply in_map_iff in H' as ([g' j'] & E' & H'). cbn in E, E'. subst j j'.
    apply vals_in, reqs_in in H as (H & -> & _); [|exact Hq]. apply vals_in, reqs_in in H' as (H' & -> & _); [|exact Hq]. congruence.
Qed.

Lemma distribute_ok r : r < P ->
  distribute_from_postoffice zero P nbx0 nbx1 x off N indices r = Some (map (fun g => nth g X zero) (indices r)).
Proof.
  intro Hr. unfold distribute_from_postoffice. rewrite postoffice_exchange_ok by exact Hr. cbn [obind].
  destruct (from_bag_ok r Hr) as (pm & -> & Hpm). cbn [obind]. rewrite req_send_ok by exact Hr. unfold sendval. cbn [obind].
  rewrite (reply_ok P (req_src P x off N indices) (req_dest P nbx1 x off N indices) _ (fun q s => C q s) req_graph req_send_ok _ F r Hr).
  2:{ intros s Hs. apply answers_ok. apply req_graph in Hs; [apply Hs|exact Hr]. }
  cbn [obind]. rewrite req_src_ok by exact Hr.
  set (pos := concat (map (fun s => map snd (C r s)) (srcs r))).
  set (rows := concat (map (fun s => map (fun g => nth g X zero) (map fst (C r s))) (srcs r))).
  assert (Hlen : length pos = length rows).
  { unfold pos, rows. rewrite <- !lsum_concat_length, !map_map. f_equal. apply map_ext. intro. now rewrite !map_length. }
  assert (Hcr : combine pos rows = concat (map (fun s => map (fun p => (snd p, nth (fst p) X zero)) (C r s)) (srcs r))).
  { apply (answers_eq F). }
  destruct (upd_all_spec (combine pos (map Some (seq 0 (length pos)))) (repeat None (length (indices r)))) as (ip & E & Hl & H1 & H2).
  { rewrite map_fst_combine by (rewrite map_length, seq_length; lia). now apply reqs_pos_NoDup. }
  { intros i v H. rewrite repeat_length. apply in_combine_l in H. unfold pos in H. apply in_concat in H as (l & Hl & H).
    apply in_map_iff in Hl as (s & <- & Hs). apply in_map_iff in H as ([g j] & E & H). cbn in E; subst j.
    apply vals_in, reqs_in in H as (H & _); [|exact Hr]. eapply nth_error_bound; eauto. }
  rewrite E. cbn [obind].
  rewrite omap_map with (g := fun i => nth (nth i (indices r) 0) X zero).
  - f_equal. apply map_seq_nth. intros k g Hk. now rewrite (nth_error_nth _ _ _ Hk).
  - intros i Hi. apply in_seq in Hi. assert (Hn := nth_error_nth_some (indices r) i 0 ltac:(lia)). rewrite Hn. cbn [obind].
    set (g := nth i (indices r) 0) in *. assert (Hg : g < N) by (apply (Hind r); [exact Hr|eapply nth_error_In; eauto]).
    assert (Hx : nth_error X g = Some (nth g X zero)) by (apply nth_error_nth_some; lia). rewrite <- Hx.
    pose proof (held_ok r g Hr) as Hh. destruct (held (off r) (length (x r)) g) as [l|] eqn:Eh.
    + destruct Hh as (Hl' & ->). now apply Hoff.
    + destruct (Nat.eq_dec (own g) r) as [Eo|No].
      * rewrite H2.
        -- rewrite nth_error_repeat by lia. cbn [obind]. now apply Hpm.
        -- rewrite map_fst_combine by (rewrite map_length, seq_length; lia). unfold pos. intro Hc. apply in_concat in Hc as (l & Hl' & H).
           apply in_map_iff in Hl' as (s & <- & Hs). apply in_map_iff in H as ([g' j] & Ej & H). cbn in Ej; subst j.
           apply vals_in, reqs_in in H as (H & -> & Hne & _); [|exact Hr]. rewrite H in Hn. injection Hn as Hn. rewrite Hn in Hne. contradiction.
      * assert (Hc : In (i, nth g X zero) (combine pos rows)).
        { rewrite Hcr. apply in_concat. exists (map (fun p => (snd p, nth (fst p) X zero)) (C r (own g))).
          assert (Hq : In (own g, (g, i)) (reqs r)) by (apply reqs_in; auto). split.
          - apply in_map_iff. exists (own g). split; [reflexivity|]. apply sort_uniq_in, in_map_iff. now exists (own g, (g, i)).
          - apply in_map_iff. exists (g, i). split; [reflexivity|]. now apply vals_in. }
        apply combine_nth_in in Hc as (k & Hk & Hv). rewrite (H1 i (Some k)).
        -- cbn [obind]. now rewrite Hx.
        -- apply combine_nth_in. exists k. split; [exact Hk|]. rewrite nth_error_map_some, nth_error_seq by (eapply nth_error_bound; eauto). reflexivity.
Qed.
End World.

(** * distribute_data *)
Section Data.
Context {A : Type}.
Variables (zero : A) (P : nat) (x : nat -> list A) (comm1 : list nat).
Hypothesis Hc1 : NoDup comm1.
Hypothesis Hc2 : forall q, In q comm1 -> q < P.
Hypothesis Hc3 : forall q, q < P -> ~ In q comm1 -> x q = [].
Notation X := (concat (map x comm1)).

Lemma exscan_on_spec a b acc r : NoDup (a ++ r :: b) ->
  exscan_on (a ++ r :: b) (fun q => length (x q)) acc r = Some (acc + length (concat (map x a))).
Proof.
  clear. revert acc. induction a as [|s t IH]; intros acc Hn; cbn [app exscan_on].
  - rewrite Nat.eqb_refl. cbn. now rewrite Nat.add_0_r.
  - cbn [app] in Hn. inversion_clear Hn as [|? ? Hs Ht]. destruct (Nat.eqb_spec s r) as [E|Ne].
    + exfalso. apply Hs. subst. apply in_or_app. right. now left.
    + rewrite IH by exact Ht. cbn [map concat]. rewrite app_length. f_equal. lia.
Qed.

Lemma concat_split c g : g < length (concat (map x c)) ->
  exists a q b i, c = a ++ q :: b /\ i < length (x q) /\ g = i + length (concat (map x a)).
Proof.
  clear. revert g. induction c as [|s t IH]; intros g Hg; cbn [map concat] in Hg; [cbn in Hg; lia|].
  rewrite app_length in Hg. destruct (Nat.lt_ge_cases g (length (x s))) as [L|L].
  - exists [], s, t, g. cbn. repeat split; auto.
  - destruct (IH (g - length (x s))) as (a & q & b & i & -> & Hi & E); [lia|]. exists (s :: a), q, b, i. repeat split; auto.
    cbn [map concat]. rewrite app_length. lia.
Qed.

Lemma lsum_perm l l' : Permutation l l' -> lsum l = lsum l'.
Proof. clear. induction 1; rewrite ?lsum_cons in *; try lia. Qed.

Lemma total_rows : allreduce_sum P (fun q => length (x q)) = length X.
Proof.
  unfold allreduce_sum. rewrite <- lsum_concat_length, map_map.
  rewrite (lsum_perm _ (map (fun q => length (x q)) (filter (fun q => mem q comm1) (seq 0 P) ++ filter (fun q => negb (mem q comm1)) (seq 0 P))))
    by (apply Permutation_map, filter_split_perm).
  rewrite map_app, lsum_app.
  replace (lsum (map (fun q => length (x q)) (filter (fun q => negb (mem q comm1)) (seq 0 P)))) with 0.
  - rewrite Nat.add_0_r. apply lsum_perm, Permutation_map. apply NoDup_Permutation; [apply NoDup_filter, seq_NoDup|exact Hc1|].
    intro q. rewrite filter_In, in_seq, mem_iff. split; [tauto|]. intro H. specialize (Hc2 q H). split; [lia|exact H].
  - symmetry. assert (G : forall l, (forall q, In q l -> x q = []) -> lsum (map (fun q => length (x q)) l) = 0).
    { induction l as [|q t IH]; intro H; [reflexivity|]. cbn [map]. rewrite lsum_cons, IH by (intros; apply H; now right).
      rewrite (H q) by now left. reflexivity. }
    apply G. intros q Hq. apply filter_In in Hq as (Hq & Hm). apply in_seq in Hq. apply Hc3; [lia|]. rewrite <- mem_iff.
    destruct (mem q comm1); [discriminate|congruence].
Qed.

Notation off := (exscan_on comm1 (fun q => length (x q)) 0).
Notation offs q := (match off q with Some o => o | None => 0 end).

Lemma blocks_ok :
  (forall q i, q < P -> i < length (x q) ->
     off q = Some (offs q) /\ i + offs q < length X /\ nth_error (x q) i = nth_error X (i + offs q)) /\
  (forall q q' i i', q < P -> q' < P -> i < length (x q) -> i' < length (x q') -> i + offs q = i' + offs q' -> q = q') /\
  (forall g, g < length X -> exists q i, q < P /\ i < length (x q) /\ g = i + offs q).
Proof.
  assert (Hmem : forall q i, q < P -> i < length (x q) -> In q comm1).
  { intros q i Hq Hi'. destruct (in_dec Nat.eq_dec q comm1) as [H|H]; [exact H|]. rewrite (Hc3 q Hq H) in Hi'. cbn in Hi'. lia. }
  assert (Hsp : forall q i, q < P -> i < length (x q) -> exists a b, comm1 = a ++ q :: b /\ off q = Some (length (concat (map x a)))).
  { intros q i Hq Hi'. destruct (in_split _ _ (Hmem q i Hq Hi')) as (a & b & E). exists a, b. split; [exact E|]. rewrite E in Hc1 |- *. now rewrite exscan_on_spec. }
  split; [|split].
  - intros q i Hq Hi'. destruct (Hsp q i Hq Hi') as (a & b & E & E'). rewrite E'. split; [reflexivity|].
    rewrite E, map_app, concat_app. cbn [map concat]. split; [rewrite !app_length; lia|].
    rewrite nth_error_app2 by lia. replace (i + length (concat (map x a)) - length (concat (map x a))) with i by lia.
    now rewrite nth_error_app1.
  - intros q q' i i' Hq Hq' Hi1 Hi2. destruct (Hsp q i Hq Hi1) as (a & b & E & ->). destruct (Hsp q' i' Hq' Hi2) as (a' & b' & E' & ->).
    intro Eg. destruct (Nat.eq_dec q q') as [|Ne]; [assumption|exfalso].
    assert (G : forall a b a' b', a ++ q :: b = a' ++ q' :: b' -> 
       (length (concat (map x a)) + length (x q) <= length (concat (map x a'))) \/ (length (concat (map x a')) + length (x q') <= length (concat (map x a)))).
    { clear - Ne. induction a as [|s a IH]; intros b [|s' a'] b' H; cbn [app] in H; injection H as H1 H2.
      - contradiction.
      - subst. left. cbn [map concat]. rewrite app_length. cbn. lia.
      - subst. right. cbn [map concat]. rewrite app_length. cbn. lia.
      - subst. cbn [map concat]. rewrite !app_length. destruct (IH _ _ _ H2); [left|right]; lia. }
    destruct (G a b a' b'); [congruence|lia|lia].
  - intros g Hg. destruct (concat_split _ _ Hg) as (a & q & b & i & E & Hi' & Eg). exists q, i.
    split; [apply Hc2; rewrite E; apply in_or_app; right; now left|]. split; [exact Hi'|]. rewrite E in Hc1 |- *.
    rewrite exscan_on_spec by exact Hc1. exact Eg.
Qed.

Lemma distribute_data_ok nbx0 nbx1 indices r : nbx_oracle P nbx0 -> nbx_oracle P nbx1 -> r < P ->
  (forall q g, q < P -> In g (indices q) -> g < length X) ->
  distribute_data zero P nbx0 nbx1 comm1 x indices r = Some (map (fun g => nth g X zero) (indices r)).
Proof.
  intros Hn0 Hn1 Hr Hi. unfold distribute_data.
  replace (forallb _ _) with true.
  2:{ symmetry. apply forallb_forall. intros q Hq. apply in_seq in Hq. destruct (mem q comm1) eqn:Em; [reflexivity|].
      cbn [orb]. rewrite Hc3; [reflexivity|lia|]. rewrite <- mem_iff. congruence. }
  rewrite total_rows. destruct blocks_ok as (H1 & H2 & H3). apply distribute_ok; auto. lia.
Qed.

Lemma to_postoffice_ok nbx0 r : nbx_oracle P nbx0 -> r < P -> exists idx rows,
  distribute_to_postoffice zero P nbx0 x off (length X) r = Some (idx, rows) /\
  length rows = length idx /\ NoDup idx /\
  forall l row, In (l, row) (combine idx rows) <->
    let g := fst (po_range P r (length X)) + l in
    g < snd (po_range P r (length X)) /\ nth_error X g = Some row /\
    ~ (exists o, off r = Some o /\ o <= g < o + length (x r)).
Proof.
  intros Hn0 Hr. destruct blocks_ok as (H1 & H2 & H3). unfold distribute_to_postoffice.
  assert (HP : 0 < P) by lia.
  set (N := length X) in *.
  assert (Hb := bag_in zero P nbx0 Hn0 x off N HP X eq_refl H1 H2 H3 r).
  pose proof (postoffice_exchange_ok zero P nbx0 Hn0 x off N HP X eq_refl H1 H2 H3 r Hr) as E.
  unfold post_src in E. rewrite E. eexists. eexists. split; [reflexivity|]. rewrite !map_length. split; [reflexivity|].
  set (bg := bag zero P nbx0 x off N r) in *.
  assert (Hin : forall p, In p bg -> fst (po_range P r N) <= fst p < snd (po_range P r N)).
  { intros [g a] H. apply (Hb g a Hr) in H as (Hg & Ho & _). cbn [fst]. apply (own_iff P N HP g r Hg Hr). exact Ho. }
  split.
  - rewrite <- (map_map fst (fun g => g - fst (po_range P r N))). apply NoDup_map_inj.
    + apply (bag_NoDup zero P nbx0 Hn0 x off N HP X eq_refl H1 H2 r Hr).
    + intros u w Hu Hw. apply in_map_iff in Hu as (p & <- & Hp). apply in_map_iff in Hw as (p' & <- & Hp').
      pose proof (Hin p Hp); pose proof (Hin p' Hp'); lia.
  - intros l row. rewrite combine_map, in_map_iff. cbn zeta. split.
    + intros ([g a] & Eg & H). injection Eg as <- <-. pose proof (Hin _ H) as Hg'. cbn [fst snd] in *.
      replace (fst (po_range P r N) + (g - fst (po_range P r N))) with g by lia.
      apply (Hb g a Hr) in H as (Hg & Ho & Hx & Hno). split; [lia|]. split; [exact Hx|].
      intros (o & Eo & Hr'). apply (Hno (g - o)); [lia|]. rewrite Eo. lia.
    + intros (Hg & Hx & Hno). exists (fst (po_range P r N) + l, row). cbn [fst snd].
      replace (fst (po_range P r N) + l - fst (po_range P r N)) with l by lia. split; [reflexivity|].
      pose proof (nth_error_bound _ _ _ Hx) as HgN. apply (Hb _ _ Hr). split; [exact HgN|]. split; [apply own_iff; auto; lia|]. split; [exact Hx|].
      intros i Hi Eg. apply Hno. destruct (H1 r i Hr Hi) as (Eo & _). exists (offs r). split; [exact Eo|]. lia.
Qed.

Lemma distribute_data_throws nbx0 nbx1 q indices r : q < P -> ~ In q comm1 -> x q <> [] ->
  distribute_data zero P nbx0 nbx1 comm1 x indices r = None.
Proof.
  clear. intros Hq Hn Hx. unfold distribute_data.
  replace (forallb _ _) with false; [reflexivity|]. symmetry. apply not_true_iff_false. intro H. rewrite forallb_forall in H.
  specialize (H q). rewrite in_seq in H. specialize (H ltac:(lia)). apply orb_true_iff in H as [H|H].
  - now apply mem_iff in H.
  - apply Nat.eqb_eq in H. destruct (x q); [contradiction|discriminate].
Qed.
End Data.
