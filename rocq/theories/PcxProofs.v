From Verif Require Import Base BaseProofs Nbx NbxProofs.

Definition pr_eqb (a b : nat * nat) : bool := (fst a =? fst b) && (snd a =? snd b).
Lemma pr_eqb_eq a b : pr_eqb a b = true <-> a = b.
Proof.
  destruct a, b. unfold pr_eqb. cbn. rewrite andb_true_iff, !Nat.eqb_eq. split.
  - intros (-> & ->). reflexivity.
  - intro H. injection H as -> ->. auto.
Qed.
Definition pcnt (m : nat * nat) (l : list (nat * nat)) : nat := countb (pr_eqb m) l.
Lemma pcnt_app m a b : pcnt m (a ++ b) = pcnt m a + pcnt m b.
Proof. apply countb_app. Qed.
Lemma pcnt_cons m x b : pcnt m (x :: b) = (if pr_eqb m x then 1 else 0) + pcnt m b.
Proof. reflexivity. Qed.
Lemma pcnt_first m l : pcnt m l > 0 -> exists a b, l = a ++ m :: b /\ ~ In m a.
Proof.
  induction l as [|x t IH]; [cbn; lia|]. rewrite pcnt_cons. destruct (pr_eqb m x) eqn:E.
  - apply pr_eqb_eq in E. subst x. intros _. exists [], t. auto.
  - cbn. intro H. destruct (IH H) as (a & b & -> & Hn). exists (x :: a), b. split; [reflexivity|].
    intros [->|Hi]; [|auto]. assert (pr_eqb m m = true) by now apply pr_eqb_eq. congruence.
Qed.

Lemma cn_cons x y l : cn x (y :: l) = (if x =? y then 1 else 0) + cn x l.
Proof. change (y :: l) with ([y] ++ l). rewrite cn_app, cn_one. reflexivity. Qed.

Lemma sub_perm (a : list nat) : forall b, (forall s, cn s a <= cn s b) -> length a = length b -> Permutation a b.
Proof.
  induction a as [|x a IH]; intros b Hc Hl.
  - destruct b; [constructor|discriminate].
  - assert (Hx : In x b).
    { apply (count_occ_In Nat.eq_dec). fold (cn x b). specialize (Hc x). rewrite cn_cons, Nat.eqb_refl in Hc. lia. }
    apply in_split in Hx as (b1 & b2 & ->). apply Permutation_cons_app. apply IH.
    + intro s. specialize (Hc s). rewrite cn_app, !cn_cons in *. lia.
    + rewrite app_length in *. cbn in *. lia.
Qed.

Section Pcx1.
Variables (P : nat) (edges : nat -> nat -> list nat).
Hypothesis edges_valid : forall s d, s < P -> In d (edges 0 s) -> d < P.
Hypothesis edges_once : forall s, s < P -> NoDup (edges 0 s).

Notation pstep := (pstep P 1 edges).
Notation psteps := (psteps P 1 edges).

Definition todo (st : pstate) (s r : nat) : nat :=
  match p_call st s with
  | 0 => match p_pc st s with PIdle => cn r (edges 0 s) | PIssue l => cn r l | _ => 0 end
  | S _ => 0
  end.

Record PInv (st : pstate) : Prop := {
  J_count : forall s r, s < P -> cn s (p_src st r 0) + pcnt (s, r) (p_net st) + todo st s r = cn r (edges 0 s);
  J_src : forall r s, In s (p_src st r 0) -> s < P;
  J_net : forall s d, In (s, d) (p_net st) -> s < P;
  J_call : forall r, p_call st r <= 1 /\ (p_pc st r <> PIdle -> p_call st r = 0 /\ r < P);
  J_left : forall r, r < P ->
     match p_call st r, p_pc st r with
     | 0, PRecv n => n + length (p_src st r 0) = in_count P edges 0 r
     | 0, _ => p_src st r 0 = []
     | S _, _ => length (p_src st r 0) = in_count P edges 0 r
     end;
  J_join : forall r, r < P -> p_joined st r 0 = match p_call st r, p_pc st r with 0, PIdle => false | _, _ => true end
}.

Ltac fs q r := destruct (Nat.eq_dec q r) as [->|?]; [rewrite ?fset_eq in *|rewrite ?fset_neq in * by assumption].

Lemma pinv_init : PInv pinit.
Proof.
  constructor; cbn; auto.
  - intros r s [].
  - intros s d [].
  - intro r. split; [lia|]. intro H; now destruct H.
Qed.

(** Steps of one rank that change neither received lists nor the network. *)
Lemma pinv_pc st r p : PInv st -> r < P -> p_call st r = 0 ->
  (forall q, todo (mkP (p_call st) (fset (p_pc st) r p) (p_joined st) (p_src st) (p_net st)) r q = todo st r q) ->
  p <> PIdle -> p_pc st r <> PIdle ->
  match p with PRecv n => n + length (p_src st r 0) = in_count P edges 0 r | _ => p_src st r 0 = [] end ->
  PInv (mkP (p_call st) (fset (p_pc st) r p) (p_joined st) (p_src st) (p_net st)).
Proof.
  intros HI Hr Hc Ht Hp Hp' Hl. destruct HI. constructor; cbn [p_call p_pc p_joined p_src p_net]; auto.
  - intros s q Hs. rewrite <- (J_count0 s q Hs). f_equal.
    destruct (Nat.eq_dec s r) as [->|Ne]; [apply Ht|]. unfold todo. cbn [p_call p_pc]. now rewrite fset_neq.
  - intro q. destruct (J_call0 q) as (A & B). split; [exact A|]. fs q r; auto.
  - intros q Hq. specialize (J_left0 q Hq). fs q r; [|exact J_left0]. rewrite Hc in *. destruct p; auto.
  - intros q Hq. rewrite (J_join0 q Hq). fs q r; [|reflexivity]. rewrite Hc. destruct p, (p_pc st r); auto; contradiction.
Qed.

Lemma pinv_step st st' : PInv st -> pstep st st' -> PInv st'.
Proof.
  intros HI Hs. inversion Hs; subst; clear Hs.
  - rename H into Hr, H0 into HC, H1 into Hpc. assert (Hc0 : p_call st r = 0) by lia. destruct HI.
    constructor; cbn [p_call p_pc p_joined p_src p_net]; auto.
    + intros s q Hs. rewrite <- (J_count0 s q Hs). f_equal. unfold todo. cbn [p_call p_pc].
      fs s r; [now rewrite Hpc, Hc0|reflexivity].
    + intro q. destruct (J_call0 q) as (A & B). split; [exact A|]. fs q r; auto.
    + intros q Hq. specialize (J_left0 q Hq). fs q r; [|exact J_left0]. rewrite Hc0 in *. now rewrite Hpc in J_left0.
    + intros q Hq. rewrite (J_join0 q Hq), Hc0. fs q r.
      * rewrite Nat.eqb_refl. cbn. rewrite Hc0. reflexivity.
      * destruct (Nat.eqb_spec q r); [contradiction|]. reflexivity.
  - rename H into Hr, H0 into Hpc.
    assert (Hc0 : p_call st r = 0) by (apply (J_call _ HI); congruence). destruct HI.
    constructor; cbn [p_call p_pc p_joined p_src p_net]; auto.
    + intros s q Hs. rewrite <- (J_count0 s q Hs), pcnt_app, pcnt_cons. unfold todo. cbn [p_call p_pc pcnt countb].
      unfold pr_eqb. cbn [fst snd].
      destruct (Nat.eq_dec s r) as [->|Ne].
      * rewrite fset_eq, Hpc, Hc0, cn_cons, Nat.eqb_refl. cbn [andb]. lia.
      * rewrite fset_neq by exact Ne. destruct (Nat.eqb_spec s r); [contradiction|]. cbn. lia.
    + intros s d' H. apply in_app_iff in H as [H|[H|[]]]; [eauto|congruence].
    + intro q. destruct (J_call0 q) as (A & B). split; [exact A|]. fs q r; auto.
    + intros q Hq. specialize (J_left0 q Hq). fs q r; [|exact J_left0]. rewrite Hc0 in *. now rewrite Hpc in J_left0.
    + intros q Hq. rewrite (J_join0 q Hq). fs q r; [now rewrite Hpc|reflexivity].
  - rename H into Hr, H0 into Hpc.
    assert (Hc0 : p_call st r = 0) by (apply (J_call _ HI); congruence).
    apply pinv_pc; auto; try discriminate; try congruence.
    + intro q. unfold todo. cbn [p_call p_pc]. now rewrite fset_eq, Hpc, Hc0.
    + pose proof (J_left _ HI r Hr) as L. now rewrite Hpc, Hc0 in L.
  - rename H into Hr, H0 into Hpc.
    assert (Hc0 : p_call st r = 0) by (apply (J_call _ HI); congruence).
    apply pinv_pc; auto; try discriminate; try congruence.
    + intro q. unfold todo. cbn [p_call p_pc]. now rewrite fset_eq, Hpc, Hc0.
    + pose proof (J_left _ HI r Hr) as L. rewrite Hpc, Hc0 in L. rewrite L, Hc0. cbn. lia.
  - rename H into Hr, H0 into Hpc, H1 into Hnet.
    assert (Hc0 : p_call st r = 0) by (apply (J_call _ HI); congruence). destruct HI.
    constructor; cbn [p_call p_pc p_joined p_src p_net]; rewrite ?Hc0; cbn [Nat.eqb]; auto.
    + intros s' q Hs. rewrite <- (J_count0 s' q Hs), Hnet, !pcnt_app, pcnt_cons. rewrite andb_true_r.
      replace (todo _ s' q) with (todo st s' q).
      2:{ unfold todo. cbn [p_call p_pc]. fs s' r; [now rewrite Hpc|reflexivity]. }
      unfold pr_eqb. cbn [fst snd]. destruct (Nat.eqb_spec q r) as [->|Ne].
      * rewrite cn_app, cn_one, andb_true_r. lia.
      * rewrite andb_false_r. lia.
    + intros q s'. rewrite andb_true_r. destruct (Nat.eqb_spec q r) as [->|Ne]; [|apply J_src0].
      intro H. apply in_app_iff in H as [H|[<-|[]]]; [eauto|]. apply (J_net0 s r). rewrite Hnet.
      apply in_app_iff. right. now left.
    + intros s' d' H. apply (J_net0 s' d'). rewrite Hnet. now apply sub_net.
    + intro q. destruct (J_call0 q) as (A & B). split; [exact A|]. fs q r; auto.
    + intros q Hq. specialize (J_left0 q Hq). rewrite andb_true_r. fs q r.
      * rewrite Nat.eqb_refl, Hc0 in *. rewrite Hpc in J_left0. rewrite app_length. cbn in *. lia.
      * destruct (Nat.eqb_spec q r); [contradiction|exact J_left0].
    + intros q Hq. rewrite (J_join0 q Hq). fs q r; [now rewrite Hpc|reflexivity].
  - rename H into Hr, H0 into Hpc.
    assert (Hc0 : p_call st r = 0) by (apply (J_call _ HI); congruence). destruct HI.
    constructor; cbn [p_call p_pc p_joined p_src p_net]; auto.
    + intros s q Hs. rewrite <- (J_count0 s q Hs). f_equal. unfold todo. cbn [p_call p_pc].
      fs s r; [now rewrite Hpc, Hc0|reflexivity].
    + intro q. destruct (J_call0 q) as (A & B). fs q r; [|split; auto]. split; [lia|]. intro H; now destruct H.
    + intros q Hq. specialize (J_left0 q Hq). fs q r; [|exact J_left0]. rewrite Hc0, Hpc in J_left0. exact J_left0.
    + intros q Hq. rewrite (J_join0 q Hq). fs q r; [now rewrite Hc0, Hpc|reflexivity].
Qed.

Lemma pinv_steps st st' : PInv st -> psteps st st' -> PInv st'.
Proof. intros HI H. induction H; [exact HI|]. apply IHpsteps. eapply pinv_step; eauto. Qed.

Lemma cn_once l x : NoDup l -> cn x l = if existsb (Nat.eqb x) l then 1 else 0.
Proof.
  intro H. destruct (existsb (Nat.eqb x) l) eqn:E.
  - apply existsb_exists in E as (y & Hy & Ey). apply Nat.eqb_eq in Ey. subst y.
    apply NoDup_count_occ' with (decA := Nat.eq_dec); auto.
  - apply count_occ_not_In. intro Hx. assert (existsb (Nat.eqb x) l = true); [|congruence].
    apply existsb_exists. exists x. split; [exact Hx|apply Nat.eqb_refl].
Qed.

Lemma length_senders_from es r n : forall a,
  length (flat_map (fun s => map (fun _ : nat => s) (filter (Nat.eqb r) (es s))) (seq a n))
  = lsum (map (fun s => cn r (es s)) (seq a n)).
Proof.
  induction n as [|n IH]; intro a; [reflexivity|]. cbn [seq flat_map map lsum].
  rewrite app_length, IH, map_length. f_equal.
  induction (es a) as [|e t IHt]; [reflexivity|]. rewrite cn_cons. cbn [filter].
  destruct (r =? e); cbn [length Nat.add]; rewrite IHt; reflexivity.
Qed.

Lemma in_count_senders r : in_count P edges 0 r = length (senders P (edges 0) r).
Proof.
  unfold senders. rewrite length_senders_from. unfold in_count. f_equal. apply map_ext_in.
  intros s Hs. apply in_seq in Hs. rewrite cn_once by (apply edges_once; lia). reflexivity.
Qed.

Lemma pcx_safe st r : psteps pinit st -> r < P -> p_call st r = 1 ->
  Permutation (p_src st r 0) (senders P (edges 0) r).
Proof.
  intros Hst Hr Hc. pose proof (pinv_steps _ _ pinv_init Hst) as HI. apply sub_perm.
  - intro s. destruct (Nat.lt_ge_cases s P) as [Hs|Hs].
    + rewrite cn_senders by exact Hs. pose proof (J_count _ HI s r Hs). lia.
    + replace (cn s (p_src st r 0)) with 0; [lia|]. symmetry. apply count_occ_not_In.
      intro H. pose proof (J_src _ HI r s H). lia.
  - pose proof (J_left _ HI r Hr) as L. rewrite Hc in L. rewrite L. apply in_count_senders.
Qed.

Lemma psteps_trans a b c : psteps a b -> psteps b c -> psteps a c.
Proof. induction 1; intro; [assumption|]. eapply PTrans; eauto. Qed.

(** A rank that is not past its sends gets there. *)
Definition sent (st : pstate) (r : nat) : Prop :=
  p_call st r = 1 \/ p_pc st r = PWait \/ exists n, p_pc st r = PRecv n.

Lemma p_issue st r : PInv st -> r < P ->
  exists st', psteps st st' /\ sent st' r /\ (forall q, sent st q -> sent st' q).
Proof.
  intros HI Hr.
  assert (G : forall l st, p_pc st r = PIssue l -> p_call st r = 0 ->
     exists st', psteps st st' /\ sent st' r /\ (forall q, sent st q -> sent st' q)).
  { induction l as [|d l IH]; intros s E Ec.
    - eexists. split; [eapply PTrans; [eapply PSent with (r := r); eauto|apply PRefl]|]. split.
      + right; left. cbn. apply fset_eq.
      + intros q [Hq|Hq]; [now left|]. right. cbn. fs q r; auto.
    - destruct (IH (mkP (p_call s) (fset (p_pc s) r (PIssue l)) (p_joined s) (p_src s) (p_net s ++ [(r, d)])))
        as (s' & A1 & A2 & A3); [cbn; apply fset_eq|exact Ec|].
      exists s'. split; [eapply PTrans; [eapply PSend with (r := r); eauto|exact A1]|]. split; [exact A2|].
      intros q Hq. apply A3. destruct Hq as [Hq|Hq]; [now left|]. right. cbn. fs q r; auto.
      rewrite E in Hq. destruct Hq as [Hq|(n & Hq)]; discriminate. }
  destruct (J_call _ HI r) as (Hle & Hne).
  destruct (Nat.eq_dec (p_call st r) 1) as [E1|N1].
  { exists st. split; [apply PRefl|]. split; [now left|auto]. }
  assert (E0 : p_call st r = 0) by lia.
  destruct (p_pc st r) as [|l| |n] eqn:E.
  - destruct (G (edges 0 r) (mkP (p_call st) (fset (p_pc st) r (PIssue (edges (p_call st r) r)))
      (fun q c => if (q =? r) && (c =? p_call st r) then true else p_joined st q c) (p_src st) (p_net st)))
      as (s' & A1 & A2 & A3); [cbn; rewrite E0; apply fset_eq|exact E0|].
    exists s'. split; [eapply PTrans; [eapply PEnter with (r := r); auto; lia|exact A1]|]. split; [exact A2|].
    intros q Hq. apply A3. destruct Hq as [Hq|Hq]; [now left|]. right. cbn. fs q r; auto.
    rewrite E in Hq. destruct Hq as [Hq|(n & Hq)]; discriminate.
  - eapply G; eauto.
  - exists st. split; [apply PRefl|]. split; [right; left; exact E|auto].
  - exists st. split; [apply PRefl|]. split; [right; right; eauto|auto].
Qed.

Lemma p_issues st n : PInv st -> n <= P -> exists st', psteps st st' /\ forall r, r < n -> sent st' r.
Proof.
  intro HI. induction n as [|n IH]; intro Hn; [exists st; split; [apply PRefl|lia]|].
  destruct IH as (s1 & A1 & A2); [lia|].
  destruct (p_issue s1 n) as (s2 & B1 & B2 & B3); [eapply pinv_steps; eauto|lia|].
  exists s2. split; [eapply psteps_trans; eauto|]. intros r Hr.
  destruct (Nat.eq_dec r n) as [->|]; [exact B2|]. apply B3, A2. lia.
Qed.

Lemma p_finish st r : PInv st -> r < P -> (forall q, q < P -> sent st q) ->
  exists st', psteps st st' /\ p_call st' r = 1 /\ (forall q, q < P -> sent st' q) /\
    (forall q, p_call st q <= p_call st' q).
Proof.
  intros HI Hr Hall.
  assert (G : forall n st, PInv st -> (forall q, q < P -> sent st q) -> p_pc st r = PRecv n -> p_call st r = 0 ->
     exists st', psteps st st' /\ p_call st' r = 1 /\ (forall q, q < P -> sent st' q) /\
       (forall q, p_call st q <= p_call st' q)).
  { induction n as [|n IH]; intros s Hs Ha Hpc Hc.
    - eexists. split; [eapply PTrans; [eapply PReturn with (r := r); eauto|apply PRefl]|]. cbn.
      split; [rewrite fset_eq; lia|]. split.
      + intros q Hq. unfold sent. cbn. fs q r; [left; lia|apply Ha; exact Hq].
      + intro q. fs q r; lia.
    - assert (Hex : exists s0, s0 < P /\ pcnt (s0, r) (p_net s) > 0).
      { destruct (existsb (fun s0 => 0 <? pcnt (s0, r) (p_net s)) (seq 0 P)) eqn:E.
        - apply existsb_exists in E as (x & Hx & E). apply Nat.ltb_lt in E. apply in_seq in Hx. exists x. lia.
        - exfalso. pose proof (J_left _ Hs r Hr) as L. rewrite Hc, Hpc in L. rewrite in_count_senders in L.
          assert (Permutation (senders P (edges 0) r) (p_src s r 0)) as Pm.
          { apply (Permutation_count_occ Nat.eq_dec). intro x. fold (cn x (senders P (edges 0) r)) (cn x (p_src s r 0)).
            destruct (Nat.lt_ge_cases x P) as [Hx|Hx].
            - rewrite cn_senders by exact Hx. rewrite <- (J_count _ Hs x r Hx).
              assert (pcnt (x, r) (p_net s) = 0) as ->.
              { destruct (pcnt (x, r) (p_net s)) eqn:Ex; [reflexivity|]. exfalso.
                assert (existsb (fun s0 => 0 <? pcnt (s0, r) (p_net s)) (seq 0 P) = true); [|congruence].
                apply existsb_exists. exists x. split; [apply in_seq; lia|]. apply Nat.ltb_lt. lia. }
              assert (todo s x r = 0) as ->; [|lia].
              unfold todo. destruct (Ha x Hx) as [->|[->|(k & ->)]]; auto; destruct (p_call s x); auto.
            - transitivity 0; [|symmetry]; apply count_occ_not_In.
              + rewrite in_senders. lia.
              + intro H. pose proof (J_src _ Hs r x H). lia. }
          apply Permutation_length in Pm. lia. }
      destruct Hex as (s0 & Hs0 & Hp). destruct (pcnt_first _ _ Hp) as (n1 & n2 & En & Hn).
      assert (St : pstep s (mkP (p_call s) (fset (p_pc s) r (PRecv n)) (p_joined s)
                  (fun q c => if (q =? r) && (c =? p_call s r) then p_src s q c ++ [s0]
                              else p_src s q c) (n1 ++ n2))) by (eapply PTake with (r := r); eauto).
      destruct (IH _ (pinv_step _ _ Hs St)) as (s' & A1 & A2 & A3 & A4).
      + intros q Hq. specialize (Ha q Hq). unfold sent in *. cbn. fs q r; [|exact Ha]. right. eauto.
      + cbn. apply fset_eq.
      + exact Hc.
      + exists s'. split; [eapply PTrans; [exact St|exact A1]|]. auto. }
  destruct (J_call _ HI r) as (Hle & Hne).
  destruct (Hall r Hr) as [E1|Hs].
  { exists st. split; [apply PRefl|]. split; [exact E1|]. auto. }
  assert (E0 : p_call st r = 0). { apply Hne. destruct Hs as [->|(n & ->)]; discriminate. }
  destruct Hs as [Hw|(n & Hn)]; [|eapply G; eauto].
  assert (St : pstep st (mkP (p_call st) (fset (p_pc st) r (PRecv (in_count P edges (p_call st r) r)))
                  (p_joined st) (p_src st) (p_net st))).
  { apply PReduced; auto. rewrite E0. intros q Hq. rewrite (J_join _ HI q Hq).
    destruct (Hall q Hq) as [->|[->|(k & ->)]]; auto; destruct (p_call st q); auto. }
  destruct (G (in_count P edges (p_call st r) r) _ (pinv_step _ _ HI St)) as (s' & A1 & A2 & A3 & A4).
  - intros q Hq. specialize (Hall q Hq). unfold sent in *. cbn. fs q r; [|exact Hall]. right. eauto.
  - cbn. apply fset_eq.
  - exact E0.
  - exists s'. split; [eapply PTrans; [exact St|exact A1]|]. auto.
Qed.

Lemma p_finishes st n : PInv st -> n <= P -> (forall q, q < P -> sent st q) ->
  exists st', psteps st st' /\ (forall q, q < P -> sent st' q) /\ forall r, r < n -> p_call st' r = 1.
Proof.
  intro HI. induction n as [|n IH]; intros Hn Ha.
  - exists st. split; [apply PRefl|]. split; [exact Ha|lia].
  - destruct IH as (s1 & A1 & A2 & A3); [lia|exact Ha|].
    pose proof (pinv_steps _ _ HI A1) as HI1.
    destruct (p_finish s1 n) as (s2 & B1 & B2 & B3 & B4); [exact HI1|lia|exact A2|].
    pose proof (pinv_steps _ _ HI1 B1) as HI2.
    exists s2. split; [eapply psteps_trans; eauto|]. split; [exact B3|]. intros r Hr.
    destruct (Nat.eq_dec r n) as [->|]; [exact B2|]. pose proof (A3 r). pose proof (B4 r).
    pose proof (J_call _ HI2 r). lia.
Qed.

Lemma pcx_can_finish st : psteps pinit st -> exists st', psteps st st' /\ forall r, r < P -> p_call st' r = 1.
Proof.
  intro Hst. pose proof (pinv_steps _ _ pinv_init Hst) as HI.
  destruct (p_issues st P HI (le_n _)) as (s1 & A1 & A2).
  destruct (p_finishes s1 P (pinv_steps _ _ HI A1) (le_n _) A2) as (s2 & B1 & _ & B3).
  exists s2. split; [eapply psteps_trans; eauto|exact B3].
Qed.
End Pcx1.
