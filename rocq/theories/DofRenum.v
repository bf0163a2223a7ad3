(** Renumbering of the dofs of a rank. *)
From Verif Require Import Base BaseProofs BucketProofs Algo AlgoProofs OrientProofs OrderingProofs DofBuilder RenumSpec.
Open Scope nat_scope.

Section R.
Variables (sizes : list nat) (de : list (nat * nat)) (dofmaps : list (list (list nat))).
Hypothesis Hin : renum_input sizes de dofmaps.
Let n := length de.
Definition ownedb (dof : nat) : bool := match is_owned sizes de dof with Some b => b | None => false end.
Definition nowned : nat := countb ownedb (seq 0 n).

Lemma nowned_le : nowned <= n.
Proof using Type.
  unfold nowned. replace n with (length (seq 0 n)) at 2 by apply seq_length. clear. induction (seq 0 n) as [|x l IH]; cbn [countb length]; [lia|]. destruct (ownedb x); lia.
Qed.
Lemma is_owned_some dof : dof < n -> is_owned sizes de dof = Some (ownedb dof).
Proof.
  intros H. unfold ownedb, is_owned. destruct (nth_error_lt de dof H) as ((k, x) & E). rewrite E. cbn [obind fst snd].
  destruct (nth_error_lt sizes k) as (o & Eo); [apply (proj1 Hin) with x; eapply nth_error_In; eauto|]. now rewrite Eo.
Qed.
Lemma ownedb_iff dof : ownedb dof = true <-> dof_owned sizes de dof.
Proof.
  unfold ownedb, is_owned, dof_owned. split.
  - destruct (nth_error de dof) as [[k x]|]; [|discriminate]. cbn [obind fst snd]. destruct (nth_error sizes k) as [o|] eqn:E; [|discriminate]. cbn [obind]. intros H. exists k, x, o. split; [reflexivity|]. split; [exact E|]. now apply Nat.ltb_lt.
  - intros (k & x & o & E1 & E2 & H). rewrite E1. cbn [obind fst snd]. rewrite E2. cbn [obind]. now apply Nat.ltb_lt.
Qed.

Lemma owned_size_ok : owned_size sizes de = Some nowned.
Proof.
  unfold owned_size, nowned.
  assert (G : forall p q, de = p ++ q -> ofold (fun a e => o <- nth_error sizes (fst e) ;; Some (if snd e <? o then S a else a)) q (countb ownedb (seq 0 (length p))) = Some (countb ownedb (seq 0 n))).
  { intros p q. revert p. induction q as [|e q IH]; intros p E; cbn [ofold].
    - do 2 f_equal. unfold n. now rewrite E, app_nil_r.
    - assert (Hp : length p < n) by (unfold n; rewrite E, app_length; cbn; lia).
      assert (He : nth_error de (length p) = Some e) by (rewrite E, nth_error_app2, Nat.sub_diag by lia; reflexivity).
      pose proof (is_owned_some _ Hp) as Ho. unfold is_owned in Ho. rewrite He in Ho. cbn [obind] in Ho. destruct (nth_error sizes (fst e)) as [o|]; [|discriminate]. cbn [obind] in *. injection Ho as Ho. rewrite Ho.
      rewrite <- (IH (p ++ [e])) by (rewrite <- app_assoc; exact E). f_equal. rewrite app_length. cbn [length]. rewrite seq_app, countb_app. cbn [seq countb]. rewrite Nat.add_0_l. destruct (ownedb (length p)); lia. }
  apply (G [] de). reflexivity.
Qed.

(** The state after visiting dofs: [V] are the visited ones in the order of the first visit. *)
Definition Inv (V : list nat) (st : list (option nat) * nat * nat) : Prop :=
  let '(o2c, co, cu) := st in
  NoDup V /\ (forall d, In d V -> d < n) /\ length o2c = n /\ co = length (filter ownedb V) /\ cu = nowned + length (filter (fun d => negb (ownedb d)) V) /\
  (forall d, d < n -> ~ In d V -> nth_error o2c d = Some None) /\
  (forall i d, nth_error (filter ownedb V) i = Some d -> nth_error o2c d = Some (Some i)) /\
  (forall i d, nth_error (filter (fun d => negb (ownedb d)) V) i = Some d -> nth_error o2c d = Some (Some (nowned + i))).

Lemma filter_snoc {A} (p : A -> bool) l x : filter p (l ++ [x]) = filter p l ++ if p x then [x] else [].
Proof. now rewrite filter_app. Qed.
Lemma snoc_nth {A} (l : list A) x i y : nth_error (l ++ [x]) i = Some y -> nth_error l i = Some y \/ i = length l /\ y = x.
Proof.
  intros H. destruct (lt_dec i (length l)) as [L|L]; [rewrite nth_error_app1 in H by exact L; now left|]. right.
  rewrite nth_error_app2 in H by lia. destruct (i - length l) as [|k] eqn:E; [|destruct k; discriminate]. split; [lia|]. cbn in H. congruence.
Qed.

Lemma visit V st dof : Inv V st -> dof < n -> exists V' st', number_dof sizes de st dof = Some st' /\ Inv V' st' /\ (forall d, In d V' <-> In d V \/ d = dof).
Proof.
  destruct st as ((o2c, co), cu). intros (I1 & I2 & I3 & I4 & I5 & I6 & I7 & I8) Hd. unfold number_dof.
  destruct (in_dec Nat.eq_dec dof V) as [Hv|Hv].
  - assert (exists x, nth_error o2c dof = Some (Some x)) as (x & E).
    { destruct (ownedb dof) eqn:Eo.
      - assert (H : In dof (filter ownedb V)) by (apply filter_In; auto). apply In_nth_error in H as (i & H). eauto.
      - assert (H : In dof (filter (fun d => negb (ownedb d)) V)) by (apply filter_In; rewrite Eo; auto). apply In_nth_error in H as (i & H). eauto. }
    rewrite E. cbn [obind]. exists V, (o2c, co, cu). split; [reflexivity|]. split; [unfold Inv; auto 10|]. intros d. split; [auto|]. intros [H| ->]; auto.
  - rewrite (I6 dof Hd Hv). cbn [obind]. rewrite is_owned_some by exact Hd. cbn [obind].
    assert (NV : NoDup (V ++ [dof])) by (apply (Permutation_NoDup (Permutation_cons_append _ _)); constructor; auto).
    assert (LV : forall d, In d (V ++ [dof]) -> d < n) by (intros d H; apply in_app_or in H as [H|[<-|[]]]; auto).
    assert (IV : forall d, In d (V ++ [dof]) <-> In d V \/ d = dof) by (intros d; rewrite in_app_iff; cbn; split; intros [H|H]; auto; [destruct H as [H|[]]; auto]).
    assert (Nf : forall p d, In d (filter p V) -> d <> dof) by (intros p d H ->; apply filter_In in H as [H _]; auto).
    destruct (ownedb dof) eqn:Eo.
    + destruct (upd_some o2c dof (Some co)) as (o2c' & Hu); [lia|]. rewrite Hu. cbn [obind]. exists (V ++ [dof]), (o2c', S co, cu). split; [reflexivity|]. split; [|exact IV].
      unfold Inv. rewrite !filter_snoc, Eo. cbn [negb]. rewrite app_nil_r. split; [exact NV|]. split; [exact LV|]. split; [rewrite (upd_length _ _ _ _ Hu); exact I3|].
      split; [rewrite app_length; cbn; lia|]. split; [exact I5|]. split; [|split].
      * intros d H1 H2. rewrite (upd_nth _ _ _ d _ Hu). destruct (Nat.eqb_spec dof d) as [<-|N]; [exfalso; apply H2, IV; auto|]. apply I6; [exact H1|]. intros H; apply H2, IV; auto.
      * intros i d H. rewrite (upd_nth _ _ _ d _ Hu). apply snoc_nth in H as [H|(-> & ->)]; [|rewrite Nat.eqb_refl; now rewrite I4].
        destruct (Nat.eqb_spec dof d) as [<-|N]; [exfalso; eapply Nf; [eapply nth_error_In; eauto|reflexivity]|]. now apply I7.
      * intros i d H. rewrite (upd_nth _ _ _ d _ Hu). destruct (Nat.eqb_spec dof d) as [<-|N]; [exfalso; eapply Nf; [eapply nth_error_In; eauto|reflexivity]|]. now apply I8.
    + destruct (upd_some o2c dof (Some cu)) as (o2c' & Hu); [lia|]. rewrite Hu. cbn [obind]. exists (V ++ [dof]), (o2c', co, S cu). split; [reflexivity|]. split; [|exact IV].
      unfold Inv. rewrite !filter_snoc, Eo. cbn [negb]. rewrite app_nil_r. split; [exact NV|]. split; [exact LV|]. split; [rewrite (upd_length _ _ _ _ Hu); exact I3|].
      split; [exact I4|]. split; [rewrite app_length; cbn; lia|]. split; [|split].
      * intros d H1 H2. rewrite (upd_nth _ _ _ d _ Hu). destruct (Nat.eqb_spec dof d) as [<-|N]; [exfalso; apply H2, IV; auto|]. apply I6; [exact H1|]. intros H; apply H2, IV; auto.
      * intros i d H. rewrite (upd_nth _ _ _ d _ Hu). destruct (Nat.eqb_spec dof d) as [<-|N]; [exfalso; eapply Nf; [eapply nth_error_In; eauto|reflexivity]|]. now apply I7.
      * intros i d H. rewrite (upd_nth _ _ _ d _ Hu). apply snoc_nth in H as [H|(-> & ->)]; [|rewrite Nat.eqb_refl; now rewrite I5].
        destruct (Nat.eqb_spec dof d) as [<-|N]; [exfalso; eapply Nf; [eapply nth_error_In; eauto|reflexivity]|]. now apply I8.
Qed.
Lemma visits l : forall V st, Inv V st -> (forall d, In d l -> d < n) -> exists V' st', ofold (number_dof sizes de) l st = Some st' /\ Inv V' st' /\ forall d, In d V' <-> In d V \/ In d l.
Proof.
  induction l as [|x l IH]; intros V st HI Hl; cbn [ofold].
  - exists V, st. split; [reflexivity|]. split; [exact HI|]. intros d; cbn; tauto.
  - destruct (visit V st x HI) as (V1 & st1 & E1 & HI1 & HV1); [apply Hl; now left|]. rewrite E1. cbn [obind].
    destruct (IH V1 st1 HI1) as (V2 & st2 & E2 & HI2 & HV2); [intros d Hd; apply Hl; now right|]. exists V2, st2. split; [exact E2|]. split; [exact HI2|].
    intros d. rewrite HV2, HV1. cbn [In]. split; [intros [[H|H]|H]; auto|intros [H|[H|H]]; auto].
Qed.

Lemma perm_of (l : list nat) m : length l = m -> (forall i j v, nth_error l i = Some v -> nth_error l j = Some v -> i = j) -> (forall v, In v l -> v < m) -> Permutation l (seq 0 m).
Proof.
  intros Hl Hi Hb. apply NoDup_Permutation_bis.
  - apply NoDup_nth_error. intros i j Hlt E. destruct (nth_error_lt l i Hlt) as (v & Ev). apply (Hi i j v); congruence.
  - rewrite seq_length. lia.
  - intros v Hv. apply in_seq. specialize (Hb v Hv). lia.
Qed.

Theorem contiguous_ok : exists o2c, contiguous sizes de dofmaps = Some (o2c, nowned) /\ renum_ok sizes de o2c nowned.
Proof.
  unfold contiguous. rewrite owned_size_ok. cbn [obind].
  assert (I0 : Inv [] (repeat None (length de), 0, nowned)).
  { unfold Inv. cbn [filter length]. split; [constructor|]. split; [intros d []|]. split; [apply repeat_length|]. split; [reflexivity|]. split; [lia|]. split; [intros d Hd _; now apply nth_error_repeat|]. split; intros [|i] d H; discriminate. }
  destruct (visits (concat (concat dofmaps)) _ _ I0) as (V1 & st1 & E1 & HI1 & HV1).
  { intros d Hd. apply in_concat in Hd as (row & Hr & Hd). apply in_concat in Hr as (rows & Hrs & Hr). now apply (proj2 Hin) with rows row. }
  rewrite E1. cbn [obind]. destruct (visits (seq 0 (length de)) _ _ HI1) as (V & st & E2 & HI2 & HV2); [intros d Hd; apply in_seq in Hd; unfold n; lia|].
  rewrite E2. cbn [obind]. destruct st as ((oc, co), cu). cbn [fst]. destruct HI2 as (I1 & I2 & I3 & I4 & I5 & I6 & I7 & I8).
  assert (HV : forall d, d < n -> In d V) by (intros d Hd; apply HV2; right; apply in_seq; unfold n in Hd; lia).
  assert (PV : Permutation V (seq 0 n)).
  { apply NoDup_Permutation; [exact I1|apply seq_NoDup|]. intros d. rewrite in_seq. split; [intros H; apply I2 in H; lia|intros H; apply HV; lia]. }
  assert (Lo : length (filter ownedb V) = nowned). { rewrite <- countb_filter. unfold nowned. clear - PV. induction PV; cbn [countb]; lia. }
  assert (Lu : length (filter (fun d => negb (ownedb d)) V) = n - nowned).
  { pose proof (Permutation_length PV) as L. rewrite seq_length in L. rewrite <- Lo. rewrite <- L. clear. induction V as [|x V IH]; cbn [filter length]; [reflexivity|].
    assert (length (filter ownedb V) <= length V) by (clear; induction V as [|y V IH]; cbn; [lia|destruct (ownedb y); cbn; lia]). destruct (ownedb x); cbn [negb length]; lia. }
  assert (Lon : nowned <= n). { rewrite <- Lo. pose proof (Permutation_length PV) as L. rewrite seq_length in L. rewrite <- L. clear; induction V as [|y V IH]; cbn; [lia|destruct (ownedb y); cbn; lia]. }
  assert (Hval : forall d, d < n -> exists v, nth_error oc d = Some (Some v) /\ v < n /\ (v < nowned <-> ownedb d = true) /\
     (ownedb d = true -> nth_error (filter ownedb V) v = Some d) /\ (ownedb d = false -> nowned <= v /\ nth_error (filter (fun d => negb (ownedb d)) V) (v - nowned) = Some d)).
  { intros d Hd. destruct (ownedb d) eqn:Eo.
    - assert (H : In d (filter ownedb V)) by (apply filter_In; auto). apply In_nth_error in H as (i & H). exists i. pose proof (nth_error_bound _ _ _ H) as B. rewrite Lo in B. split; [auto|]. split; [lia|]. split; [tauto|]. split; [auto|discriminate].
    - assert (H : In d (filter (fun d => negb (ownedb d)) V)) by (apply filter_In; rewrite Eo; auto). apply In_nth_error in H as (i & H). exists (nowned + i). pose proof (nth_error_bound _ _ _ H) as B. rewrite Lu in B. split; [auto|]. split; [lia|]. split; [split; [lia|discriminate]|]. split; [discriminate|]. intros _. split; [lia|]. now replace (nowned + i - nowned) with i by lia. }
  destruct (omap_some (fun x : option nat => x) oc) as (o2c & Eo).
  { intros x Hx. apply In_nth_error in Hx as (d & Hd). destruct (Hval d) as (v & E & _); [rewrite <- I3; eapply nth_error_bound; eauto|]. rewrite Hd in E. injection E as ->. eauto. }
  rewrite Eo. cbn [obind]. exists o2c. split; [reflexivity|].
  assert (Hn : forall d v, nth_error o2c d = Some v -> d < n /\ nth_error oc d = Some (Some v)).
  { intros d v Hd. pose proof (nth_error_bound _ _ _ Hd) as B. rewrite (omap_len _ _ _ Eo), I3 in B. split; [exact B|]. pose proof (omap_nth _ _ _ d Eo) as N. rewrite Hd in N. destruct (nth_error oc d) as [x|]; [|discriminate]. cbn [obind] in N. congruence. }
  split.
  - apply perm_of.
    + rewrite (omap_len _ _ _ Eo), I3. reflexivity.
    + intros i j v Hi Hj. apply Hn in Hi as (Bi & Hi). apply Hn in Hj as (Bj & Hj). destruct (Hval i Bi) as (vi & Ei & _ & Ai & A1 & A2). destruct (Hval j Bj) as (vj & Ej & _ & Aj & B1 & B2).
      rewrite Hi in Ei. injection Ei as <-. rewrite Hj in Ej. injection Ej as <-. destruct (ownedb i) eqn:Oi.
      * assert (Oj : ownedb j = true) by (apply Aj, Ai; reflexivity). specialize (A1 eq_refl). specialize (B1 Oj). congruence.
      * destruct (ownedb j) eqn:Oj; [assert (v < nowned) by (apply Aj; reflexivity); assert (false = true) by (now apply Ai); discriminate|].
        destruct (A2 eq_refl) as (_ & A3). destruct (B2 eq_refl) as (_ & B3). congruence.
    + intros v Hv. apply In_nth_error in Hv as (d & Hd). apply Hn in Hd as (B & Hd). destruct (Hval d B) as (v' & E & L & _). rewrite Hd in E. injection E as <-. exact L.
  - intros d v Hd. apply Hn in Hd as (B & Hd). destruct (Hval d B) as (v' & E & _ & L & _). rewrite Hd in E. injection E as <-. rewrite L. apply ownedb_iff.
Qed.

(** ** The graph *)
Section G.
Variable o2c : list nat.
Hypothesis Hlen : length o2c = n.
Variable owned : nat.

Lemma temps_ok : exists temps, omap (node_temp o2c owned) (concat dofmaps) = Some temps /\ (forall t x, In t temps -> In x t -> x < owned) /\
  (forall t, In t temps <-> exists row nodes, In row (concat dofmaps) /\ omap (nth_error o2c) row = Some nodes /\ t = filter (fun x => x <? owned) nodes).
Proof.
  destruct (omap_some (node_temp o2c owned) (concat dofmaps)) as (temps & E).
  { intros row Hr. unfold node_temp. destruct (omap_some (nth_error o2c) row) as (nodes & En); [|rewrite En; cbn [obind]; eauto].
    intros d Hd. apply nth_error_lt. rewrite Hlen. apply in_concat in Hr as (rows & Hrs & Hr). now apply (proj2 Hin) with rows row. }
  assert (Hchar : forall t, In t temps <-> exists row nodes, In row (concat dofmaps) /\ omap (nth_error o2c) row = Some nodes /\ t = filter (fun x => x <? owned) nodes).
  { intros t. split.
    - intros Ht. apply In_nth_error in Ht as (k & Hk). pose proof (omap_nth _ _ _ k E) as N. rewrite Hk in N. destruct (nth_error (concat dofmaps) k) as [row|] eqn:Er; [|discriminate]. cbn [obind] in N.
      unfold node_temp in N. destruct (omap (nth_error o2c) row) as [nodes|] eqn:En; [|discriminate]. cbn [obind] in N. exists row, nodes. split; [eapply nth_error_In; eauto|]. split; [exact En|congruence].
    - intros (row & nodes & Hr & En & ->). apply In_nth_error in Hr as (k & Hk). pose proof (omap_nth _ _ _ k E) as N. rewrite Hk in N. cbn [obind] in N. unfold node_temp in N. rewrite En in N. cbn [obind] in N. eapply nth_error_In; eauto. }
  exists temps. split; [exact E|]. split; [|exact Hchar].
  intros t x Ht Hx. apply Hchar in Ht as (row & nodes & _ & _ & ->). apply filter_In in Hx as [_ Hx]. now apply Nat.ltb_lt.
Qed.

Lemma edge_count k l : countb (fun x => x =? k) (map fst (edge_pairs l)) = countb (fun x => x =? k) l * (length l - 1).
Proof using Type.
  clear. induction l as [|x t IH]; [reflexivity|]. cbn [edge_pairs]. rewrite map_app, countb_app, IH. cbn [countb length].
  assert (G : countb (fun x0 => x0 =? k) (map fst (concat (map (fun y => [(x, y); (y, x)]) t))) = (if x =? k then 1 else 0) * length t + countb (fun x => x =? k) t).
  { clear. induction t as [|y t IH]; [cbn; lia|]. cbn [map concat]. rewrite map_app, countb_app, IH. cbn [map fst countb length]. destruct (x =? k), (y =? k); lia. }
  rewrite G. destruct t as [|y t]; [cbn; lia|]. cbn [length]. destruct (x =? k); nia.
Qed.
Lemma edge_in l : forall i j, In (i, j) (edge_pairs l) <-> exists a b, a <> b /\ nth_error l a = Some i /\ nth_error l b = Some j.
Proof using Type.
  clear. induction l as [|x t IH]; intros i j; cbn [edge_pairs].
  - split; [intros []|]. intros ([|a] & b & _ & H & _); discriminate.
  - rewrite in_app_iff, IH. split.
    + intros [H|(a & b & N & Ha & Hb)].
      * apply in_concat in H as (l & Hl & H). apply in_map_iff in Hl as (y & <- & Hy). apply In_nth_error in Hy as (k & Hk). destruct H as [[= <- <-]|[[= <- <-]|[]]]; [exists 0, (S k)|exists (S k), 0]; auto.
      * exists (S a), (S b). auto.
    + intros (a & b & N & Ha & Hb). destruct a as [|a], b as [|b]; cbn [nth_error] in Ha, Hb; [lia| | |right; exists a, b; auto].
      * left. injection Ha as <-. apply in_concat. exists [(x, j); (j, x)]. split; [apply in_map_iff; exists j; split; [reflexivity|eapply nth_error_In; eauto]|now left].
      * left. injection Hb as <-. apply in_concat. exists [(x, i); (i, x)]. split; [apply in_map_iff; exists i; split; [reflexivity|eapply nth_error_In; eauto]|right; now left].
Qed.

Lemma num_edges_ok temps : (forall t x, In t temps -> In x t -> x < owned) ->
  ofold (fun ne temp => ofold (fun ne node => modify ne node (fun x => x + (length temp - 1))) temp ne) temps (repeat 0 owned)
  = Some (map (fun k => length (vals k (concat (map edge_pairs temps)))) (seq 0 owned)).
Proof using Type.
  intros Ht. clear - Ht.
  assert (G : exists ne, ofold (fun ne temp => ofold (fun ne node => modify ne node (fun x => x + (length temp - 1))) temp ne) temps (repeat 0 owned) = Some ne /\
    length ne = owned /\ forall k, k < owned -> nth_error ne k = Some (countb (fun x => x =? k) (map fst (concat (map edge_pairs temps))))).
  { apply (ofold_prefix_ind _ (fun p ne => length ne = owned /\ forall k, k < owned -> nth_error ne k = Some (countb (fun x => x =? k) (map fst (concat (map edge_pairs p)))))).
    - split; [apply repeat_length|]. intros k Hk. now rewrite nth_error_repeat.
    - intros p temp q ne E (I1 & I2). assert (Htt : In temp temps) by (rewrite E; apply in_or_app; right; now left).
      destruct (ofold_prefix_ind (fun ne node => modify ne node (fun x => x + (length temp - 1)))
        (fun p' ne' => length ne' = owned /\ forall k, k < owned -> nth_error ne' k = Some (countb (fun x => x =? k) (map fst (concat (map edge_pairs p))) + countb (fun x => x =? k) p' * (length temp - 1))) temp ne) as (ne' & E' & J1 & J2).
      + split; [exact I1|]. intros k Hk. rewrite (I2 k Hk). cbn. now rewrite Nat.add_0_r.
      + intros p' x q' s E' (K1 & K2). assert (Hx : x < owned) by (apply (Ht temp); [exact Htt|rewrite E'; apply in_or_app; right; now left]).
        destruct (modify_some s x (fun y => y + (length temp - 1))) as (s' & Hs); [lia|]. exists s'. split; [exact Hs|]. split; [rewrite (modify_length _ _ _ _ Hs); exact K1|].
        intros k Hk. rewrite (modify_nth _ _ _ k _ Hs), (K2 k Hk), countb_app. cbn [countb]. destruct (Nat.eqb_spec x k) as [->|N]; cbn [option_map]; f_equal; lia.
      + exists ne'. split; [exact E'|]. split; [exact J1|]. intros k Hk. rewrite (J2 k Hk). f_equal. rewrite map_app, concat_app, map_app, countb_app. cbn [map concat]. rewrite app_nil_r, edge_count. reflexivity. }
  destruct G as (ne & E & L & G). rewrite E. f_equal. apply nth_error_ext. intros k. destruct (lt_dec k owned) as [Hk|Hk].
  - rewrite (G k Hk), nth_error_map_some, nth_error_seq by exact Hk. cbn [option_map Nat.add]. now rewrite vals_length.
  - rewrite (proj2 (nth_error_None _ _)), (proj2 (nth_error_None _ _)); [reflexivity|rewrite map_length, seq_length; lia|lia].
Qed.

Theorem dof_graph_ok : exists g, dof_graph o2c owned dofmaps = Some g /\ length g = owned /\ graph_wf g /\
  forall i j, (exists row, nth_error g i = Some row /\ In j row) <-> i < owned /\ j < owned /\ share_cell o2c dofmaps i j.
Proof.
  destruct temps_ok as (temps & Et & Hlt & Hchar). unfold dof_graph. rewrite Et. cbn [obind]. rewrite (num_edges_ok temps Hlt). cbn [obind].
  set (kvs := concat (map edge_pairs temps)). set (ne := map (fun k => length (vals k kvs)) (seq 0 owned)).
  assert (Hk : Forall (fun kv => fst kv < owned) kvs).
  { apply Forall_forall. intros (a, b) H. apply in_concat in H as (l & Hl & H). apply in_map_iff in Hl as (t & <- & Hti). apply edge_in in H as (u & v & _ & Hu & _). cbn [fst]. apply (Hlt t); [exact Hti|eapply nth_error_In; eauto]. }
  assert (Hne : length ne = owned) by (unfold ne; now rewrite map_length, seq_length).
  pose proof (vals_map_seq_total owned kvs Hk) as Htot. rewrite <- lsum_concat_length, map_map in Htot. fold ne in Htot.
  rewrite (ofold_ext _ (fun st temp => ls <- Some (edge_pairs temp) ;; ofold place ls st)) by reflexivity.
  rewrite (ofold_nested place (fun t => Some (edge_pairs t)) edge_pairs) by reflexivity. fold kvs.
  destruct (place_all owned kvs (psums ne) (repeat 0 (last (psums ne) 0)) Hk) as (pos & Ep & _).
  { intros k Hk'. rewrite psums_nth by lia. reflexivity. }
  { rewrite repeat_length, last_psums. exact Htot. }
  rewrite Ep. cbn [obind].
  assert (Es : omap (fun i => b <- slice_at (concat (map (fun k => vals k kvs) (seq 0 owned))) (psums ne) i ;; Some (sort_uniq b)) (seq 0 owned) = Some (map (fun i => sort_uniq (vals i kvs)) (seq 0 owned))).
  { apply omap_map. intros i Hi. apply in_seq in Hi.
    pose proof (slice_at_concat (map (fun k => vals k kvs) (seq 0 owned)) i (vals i kvs)) as S. rewrite map_map in S. fold ne in S. rewrite S; [reflexivity|].
    rewrite nth_error_map_some, nth_error_seq by lia. reflexivity. }
  rewrite Es. eexists. split; [reflexivity|].
  assert (Hadj : forall i j, In j (vals i kvs) <-> i < owned /\ j < owned /\ share_cell o2c dofmaps i j).
  { intros i j. unfold vals. rewrite in_map_iff. split.
    - intros ((a, b) & <- & H). apply filter_In in H as [H Ei]. cbn [fst snd] in *. apply Nat.eqb_eq in Ei as ->. apply in_concat in H as (l & Hl & H). apply in_map_iff in Hl as (t & <- & Hti).
      apply edge_in in H as (u & v & N & Hu & Hv). split; [apply (Hlt t); [exact Hti|eapply nth_error_In; eauto]|]. split; [apply (Hlt t); [exact Hti|eapply nth_error_In; eauto]|].
      apply Hchar in Hti as (row & nodes & Hr & En & ->). apply in_concat in Hr as (rows & Hrs & Hr).
      assert (Hf : forall (p : nat -> bool) l a b x y, a <> b -> nth_error (filter p l) a = Some x -> nth_error (filter p l) b = Some y -> exists a' b', a' <> b' /\ nth_error l a' = Some x /\ nth_error l b' = Some y).
      { clear. intros p. assert (Hmono : forall l a b x y, a < b -> nth_error (filter p l) a = Some x -> nth_error (filter p l) b = Some y -> exists a' b', a' < b' /\ nth_error l a' = Some x /\ nth_error l b' = Some y).
        { induction l as [|z l IH]; intros a b x y H Ha Hb; [destruct a; discriminate|]. cbn [filter] in Ha, Hb. destruct (p z).
          - destruct b as [|b]; [lia|]. cbn [nth_error] in Hb. destruct a as [|a].
            + cbn in Ha. injection Ha as <-. apply nth_error_In in Hb. apply filter_In in Hb as [Hb _]. apply In_nth_error in Hb as (k & Hk). exists 0, (S k). split; [lia|auto].
            + destruct (IH a b x y) as (a' & b' & L & ? & ?); [lia|auto|auto|]. exists (S a'), (S b'). split; [lia|auto].
          - destruct (IH a b x y) as (a' & b' & L & ? & ?); auto. exists (S a'), (S b'). split; [lia|auto]. }
        intros l a b x y N Ha Hb. destruct (Nat.lt_trichotomy a b) as [L|[->|L]]; [|lia|].
        - destruct (Hmono l a b x y L Ha Hb) as (a' & b' & L' & ? & ?). exists a', b'. split; [lia|auto].
        - destruct (Hmono l b a y x L Hb Ha) as (a' & b' & L' & ? & ?). exists b', a'. split; [lia|auto]. }
      destruct (Hf _ _ _ _ _ _ N Hu Hv) as (a' & b' & N' & Ha & Hb).
      pose proof (omap_nth _ _ _ a' En) as Na. rewrite Ha in Na. destruct (nth_error row a') as [da|] eqn:Eda; [|discriminate]. cbn [obind] in Na.
      pose proof (omap_nth _ _ _ b' En) as Nb. rewrite Hb in Nb. destruct (nth_error row b') as [db|] eqn:Edb; [|discriminate]. cbn [obind] in Nb.
      exists rows, row, a', b', da, db. auto 10.
    - intros (Hi & Hj & rows & row & a & b & da & db & Hrs & Hr & N & Ha & Hb & Hda & Hdb). exists (i, j). split; [reflexivity|]. apply filter_In. cbn [fst]. rewrite Nat.eqb_refl. split; [|reflexivity].
      destruct (omap_some (nth_error o2c) row) as (nodes & En). { intros d Hd. apply nth_error_lt. rewrite Hlen. now apply (proj2 Hin) with rows row. }
      apply in_concat. exists (edge_pairs (filter (fun x => x <? owned) nodes)). split.
      + apply in_map_iff. eexists. split; [reflexivity|]. apply Hchar. exists row, nodes. split; [apply in_concat; eauto|auto].
      + apply edge_in. assert (Na : nth_error nodes a = Some i) by (rewrite (omap_nth _ _ _ a En), Ha; exact Hda). assert (Nb : nth_error nodes b = Some j) by (rewrite (omap_nth _ _ _ b En), Hb; exact Hdb).
        assert (Hf : forall (p : nat -> bool) l a b x y, a <> b -> nth_error l a = Some x -> nth_error l b = Some y -> p x = true -> p y = true -> exists a' b', a' <> b' /\ nth_error (filter p l) a' = Some x /\ nth_error (filter p l) b' = Some y).
        { clear. intros p. induction l as [|z l IH]; intros a b x y N Ha Hb Px Py; [destruct a; discriminate|]. cbn [filter].
          destruct a as [|a], b as [|b]; cbn [nth_error] in Ha, Hb; [lia| | |].
          - injection Ha as ->. rewrite Px. assert (H : In y (filter p l)) by (apply filter_In; split; [eapply nth_error_In; eauto|exact Py]). apply In_nth_error in H as (k & Hk). exists 0, (S k). auto.
          - injection Hb as ->. rewrite Py. assert (H : In x (filter p l)) by (apply filter_In; split; [eapply nth_error_In; eauto|exact Px]). apply In_nth_error in H as (k & Hk). exists (S k), 0. auto.
          - destruct (IH a b x y) as (a' & b' & N' & ? & ?); [lia|auto|auto|auto|auto|]. destruct (p z); [exists (S a'), (S b')|exists a', b']; auto. }
        apply (Hf _ _ a b i j N Na Nb); now apply Nat.ltb_lt. }
  assert (Hg : forall i row, nth_error (map (fun i => sort_uniq (vals i kvs)) (seq 0 owned)) i = Some row <-> i < owned /\ row = sort_uniq (vals i kvs)).
  { intros i row. rewrite nth_error_map_some. split.
    - intros H. destruct (nth_error (seq 0 owned) i) as [x|] eqn:E; [|discriminate]. pose proof (nth_error_bound _ _ _ E) as B. rewrite seq_length in B. rewrite nth_error_seq in E by exact B. cbn in E, H. injection E as <-. split; [exact B|congruence].
    - intros [B ->]. now rewrite nth_error_seq by exact B. }
  assert (Hrow : forall i j, (exists row, nth_error (map (fun i => sort_uniq (vals i kvs)) (seq 0 owned)) i = Some row /\ In j row) <-> i < owned /\ j < owned /\ share_cell o2c dofmaps i j).
  { intros i j. rewrite <- Hadj. split.
    - intros (row & H & Hj). apply Hg in H as (_ & ->). now apply sort_uniq_in.
    - intros H. assert (B := H). apply Hadj in B as (B & _). exists (sort_uniq (vals i kvs)). split; [apply Hg; auto|]. now apply sort_uniq_in. }
  split; [now rewrite map_length, seq_length|]. split; [|exact Hrow]. split.
  - intros i li j H Hj. apply (Hrow j i). assert (S : i < owned /\ j < owned /\ share_cell o2c dofmaps i j) by (apply Hrow; eauto).
    destruct S as (S1 & S2 & rows & row & a & b & da & db & H1 & H2 & N & H3 & H4 & H5 & H6). split; [exact S2|]. split; [exact S1|]. exists rows, row, b, a, db, da. auto 10.
  - intros row H. apply In_nth_error in H as (i & H). apply Hg in H as (_ & ->). apply sort_uniq_sorted.
Qed.
End G.

Theorem reordering_ok reorder : (forall f, reorder = Some f -> reorder_wf f nowned) ->
  exists o2n, reordering_map sizes de dofmaps reorder = Some (o2n, nowned) /\ renum_ok sizes de o2n nowned.
Proof.
  intros Hre. unfold reordering_map. destruct contiguous_ok as (o2c & Ec & Pc & Oc). rewrite Ec. cbn [obind].
  destruct reorder as [f|]; [|exists o2c; split; [reflexivity|split; assumption]].
  assert (Hl : length o2c = n) by (rewrite (Permutation_length Pc); apply seq_length).
  destruct (dof_graph_ok o2c Hl nowned) as (g & Eg & Lg & Wg & _). rewrite Eg. cbn [obind].
  pose proof (Hre f eq_refl g Wg Lg) as Pf.
  assert (Lf : length (f g) = nowned) by (rewrite (Permutation_length Pf); apply seq_length).
  destruct (omap_some (fun i => if i <? nowned then nth_error (f g) i else Some i) o2c) as (o2n & En).
  { intros i _. destruct (Nat.ltb_spec i nowned); [apply nth_error_lt; lia|eauto]. }
  rewrite En. cbn [obind]. exists o2n. split; [reflexivity|].
  assert (Hn : forall d v, nth_error o2n d = Some v -> exists c, nth_error o2c d = Some c /\ (if c <? nowned then nth_error (f g) c else Some c) = Some v).
  { intros d v H. rewrite (omap_nth _ _ _ d En) in H. destruct (nth_error o2c d) as [c|]; [|discriminate]. cbn [obind] in H. eauto. }
  assert (Hb : forall c v, nth_error (f g) c = Some v -> v < nowned) by (intros c v H; apply nth_error_In in H; rewrite Pf in H; apply in_seq in H; lia).
  assert (NDf : NoDup (f g)) by (eapply Permutation_NoDup; [symmetry; exact Pf|apply seq_NoDup]).
  assert (NDc : NoDup o2c) by (eapply Permutation_NoDup; [symmetry; exact Pc|apply seq_NoDup]).
  assert (Bc : forall c, In c o2c -> c < n) by (intros c H; rewrite Pc in H; apply in_seq in H; unfold n; lia).
  split.
  - apply perm_of.
    + rewrite (omap_len _ _ _ En). exact Hl.
    + intros i j v Hi Hj. apply Hn in Hi as (c & Ei & Vi). apply Hn in Hj as (c' & Ej & Vj).
      assert (c = c') as <-.
      { destruct (Nat.ltb_spec c nowned) as [A|A], (Nat.ltb_spec c' nowned) as [B|B].
        - exact (NoDup_nth_error_inj (f g) c c' v NDf Vi Vj).
        - apply Hb in Vi. injection Vj as ->. lia.
        - apply Hb in Vj. injection Vi as ->. lia.
        - congruence. }
      exact (NoDup_nth_error_inj o2c i j c NDc Ei Ej).
    + intros v Hv. apply In_nth_error in Hv as (d & Hd). apply Hn in Hd as (c & Ec' & Vc). pose proof (Bc c (nth_error_In _ _ Ec')) as B. destruct (Nat.ltb_spec c nowned) as [A|A].
      * apply Hb in Vc. pose proof nowned_le as NL. unfold n in NL. lia.
      * injection Vc as <-. exact B.
  - intros d v Hd. apply Hn in Hd as (c & Ed & Vc). rewrite <- (Oc d c Ed). destruct (Nat.ltb_spec c nowned) as [A|A].
    + apply Hb in Vc. tauto.
    + injection Vc as <-. tauto.
Qed.
End R.
