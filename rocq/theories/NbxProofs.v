From Verif Require Import Base BaseProofs Nbx.

Definition cnt (m : msg) (l : list msg) : nat := countb (msg_eqb m) l.
Definition cn (x : nat) (l : list nat) : nat := count_occ Nat.eq_dec l x.
Definition lcnt (s : nat) (l : listener) : nat := match l with LMatched s' => if s =? s' then 1 else 0 | _ => 0 end.

Lemma msg_eqb_eq a b : msg_eqb a b = true <-> a = b.
Proof.
  destruct a as [[s t] d], b as [[s' t'] d']. cbn. rewrite !andb_true_iff, !Nat.eqb_eq. split.
  - intros ((-> & ->) & ->). reflexivity.
  - intro H. injection H as -> -> ->. auto.
Qed.

Lemma cnt_app m a b : cnt m (a ++ b) = cnt m a + cnt m b.
Proof. apply countb_app. Qed.
Lemma cnt_cons m x b : cnt m (x :: b) = (if msg_eqb m x then 1 else 0) + cnt m b.
Proof. reflexivity. Qed.
Lemma cnt_zero m l : ~ In m l -> cnt m l = 0.
Proof.
  induction l as [|x t IH]; intro H; [reflexivity|]. rewrite cnt_cons, IH.
  - destruct (msg_eqb m x) eqn:E; [|reflexivity]. apply msg_eqb_eq in E. subst. destruct H; now left.
  - intro; apply H; now right.
Qed.
Lemma cnt_pos m l : cnt m l > 0 -> In m l.
Proof.
  intro H. destruct (in_dec (fun a b : msg => ltac:(decide equality; [apply Nat.eq_dec|decide equality; apply Nat.eq_dec])) m l) as [I|I]; [exact I|].
  rewrite cnt_zero in H by exact I. lia.
Qed.
Lemma cn_app x a b : cn x (a ++ b) = cn x a + cn x b.
Proof. apply count_occ_app. Qed.
Lemma cn_one x y : cn x [y] = if x =? y then 1 else 0.
Proof. unfold cn. cbn. destruct (Nat.eq_dec y x), (Nat.eqb_spec x y); congruence. Qed.

Lemma fset_eq {A} (f : nat -> A) r v : fset f r v r = v.
Proof. unfold fset. now rewrite Nat.eqb_refl. Qed.
Lemma fset_neq {A} (f : nat -> A) r v q : q <> r -> fset f r v q = f q.
Proof. unfold fset. destruct (Nat.eqb_spec q r); congruence. Qed.

Section Proofs.
Variables (P C : nat) (K : nat -> nat) (tag : nat -> nat -> nat)
          (edges : nat -> nat -> nat -> list nat).
Hypothesis tag_inj : forall c i c' i', c < C -> c' < C -> i < K c -> i' < K c' ->
  tag c i = tag c' i' -> c = c' /\ i = i'.
Hypothesis edges_valid : forall c i s d, c < C -> i < K c -> s < P -> In d (edges c i s) -> d < P.

Notation nstep := (nstep P C K tag edges).
Notation nsteps := (nsteps P C K tag edges).
Notation sends := (sends K tag edges).

Definition inloop (p : npc) : Prop :=
  match p with Drain _ | CheckSends | CheckBarrier => True | _ => False end.
Definition loopy (p : npc) : Prop := match p with Issue _ => True | _ => inloop p end.
Definition past (p : npc) : Prop := match p with Idle | Issue _ => False | _ => True end.

Definition unissued (st : nstate) (s c i r : nat) : nat :=
  if n_call st s <? c then cn r (edges c i s)
  else if c <? n_call st s then 0
  else match n_pc st s with
       | Idle => cn r (edges c i s)
       | Issue l => cnt (s, tag c i, r) l
       | _ => 0
       end.

(** Messages a rank issues in call [c]. *)
Definition msg_of (c s : nat) (m : msg) : Prop :=
  exists i d, m = (s, tag c i, d) /\ i < K c /\ In d (edges c i s).

Definition lis_ok (st : nstate) (r c i : nat) : Prop :=
  if (r <? P) && (i <? K c) && (c =? n_call st r) then
    match n_pc st r with
    | Idle => n_lis st r c i = LNone
    | Cancel j => if i <? j then n_lis st r c i = LNone else n_lis st r c i <> LNone
    | _ => n_lis st r c i <> LNone
    end
  else n_lis st r c i = LNone.

Record Inv (st : nstate) : Prop := {
  I_count : forall c i s r, c < C -> i < K c -> s < P ->
    cn s (n_src st r c i) + lcnt s (n_lis st r c i) + cnt (s, tag c i, r) (n_net st)
      + unissued st s c i r = cn r (edges c i s);
  I_net : forall m, In m (n_net st) -> exists c s, c < C /\ s < P /\ msg_of c s m;
  I_issue : forall r l, n_pc st r = Issue l -> forall m, In m l -> msg_of (n_call st r) r m;
  I_bar : forall r c, n_bar st r c = true ->
    (c < n_call st r \/ c = n_call st r /\ past (n_pc st r)) /\
    (forall i d, i < K c -> ~ In (r, tag c i, d) (n_net st));
  I_all : forall r c, r < P -> (c < n_call st r \/ c = n_call st r /\ exists j, n_pc st r = Cancel j) ->
    forall q, q < P -> n_bar st q c = true;
  I_lis : forall r c i, lis_ok st r c i;
  I_call : forall r, n_call st r <= C /\ (n_pc st r <> Idle -> n_call st r < C /\ r < P) ;
  I_pc : forall r, match n_pc st r with
           | Drain j | Cancel j => j <= K (n_call st r)
           | CheckBarrier => n_bar st r (n_call st r) = true
           | CheckSends => n_bar st r (n_call st r) = false
           | _ => True end;
  I_src : forall r c i s, (In s (n_src st r c i) \/ n_lis st r c i = LMatched s) -> s < P
}.

Lemma cnt_flat c r i d : i < K c -> c < C ->
  cnt (r, tag c i, d) (sends c r) = cn d (edges c i r).
Proof.
  intros Hi Hc. unfold Nbx.sends.
  assert (G : forall n a, (forall j, a <= j < a + n -> j < K c) ->
    cnt (r, tag c i, d) (flat_map (fun i => map (fun d => (r, tag c i, d)) (edges c i r)) (seq a n))
    = if (a <=? i) && (i <? a + n) then cn d (edges c i r) else 0).
  { induction n as [|n IH]; intros a Hk; cbn [seq flat_map].
    - destruct (Nat.leb_spec a i), (Nat.ltb_spec i (a + 0)); cbn; auto; lia.
    - rewrite cnt_app, IH by (intros; apply Hk; lia).
      assert (E : cnt (r, tag c i, d) (map (fun d0 => (r, tag c a, d0)) (edges c a r))
                  = if a =? i then cn d (edges c i r) else 0).
      { destruct (Nat.eqb_spec a i) as [->|Ne].
        - clear. induction (edges c i r) as [|e t IH]; [reflexivity|]. cbn [map]. rewrite cnt_cons, IH.
          cbn [msg_eqb]. rewrite !Nat.eqb_refl. cbn [andb].
          unfold cn. cbn. destruct (Nat.eq_dec e d), (Nat.eqb_spec d e); try congruence; lia.
        - apply cnt_zero. intro H. apply in_map_iff in H as (x & Hx & _). injection Hx as Ht _.
          destruct (tag_inj c i c a) as (_ & E); auto. apply Hk; lia. }
      rewrite E. destruct (Nat.eqb_spec a i) as [->|Ne].
      + destruct (Nat.leb_spec i i), (Nat.ltb_spec i (i + S n)), (Nat.leb_spec (S i) i); cbn; lia.
      + destruct (Nat.leb_spec a i), (Nat.ltb_spec i (a + S n)), (Nat.leb_spec (S a) i),
          (Nat.ltb_spec i (S a + n)); cbn; lia. }
  rewrite G by (intros; lia).
  destruct (Nat.leb_spec 0 i), (Nat.ltb_spec i (0 + K c)); cbn; lia.
Qed.

Lemma in_sends c r m : In m (sends c r) -> msg_of c r m.
Proof.
  unfold Nbx.sends. rewrite in_flat_map. intros (i & Hi & Hm). apply in_map_iff in Hm as (d & <- & Hd).
  apply in_seq in Hi. exists i, d. repeat split; auto; lia.
Qed.

Lemma inv_init : Inv ninit.
Proof.
  constructor; cbn.
  - intros c i s r Hc Hi Hs. unfold unissued. cbn. destruct c; reflexivity.
  - intros m [].
  - discriminate.
  - discriminate.
  - intros r c _ [H|(_ & j & H)]; [lia|discriminate].
  - intros r c i. unfold lis_ok. cbn. destruct (_ && _); reflexivity.
  - intro r. split; [lia|]. intro H. now destruct H.
  - intro r. exact I.
  - intros r c i s [[]|H]. discriminate.
Qed.

(** Steps that only move the program counter of one rank, within the loop. *)
Lemma inv_set_pc st r p : Inv st -> loopy (n_pc st r) -> inloop p ->
  (n_pc st r = Issue [] \/ inloop (n_pc st r)) ->
  match p with Drain j => j <= K (n_call st r)
             | CheckBarrier => n_bar st r (n_call st r) = true
             | CheckSends => n_bar st r (n_call st r) = false | _ => True end ->
  Inv (set_pc st r p).
Proof.
  intros HI Hl Hp Hor Hk. destruct HI.
  assert (HnI : n_pc st r <> Idle) by (intro E; rewrite E in Hl; exact Hl).
  constructor; cbn [n_call n_pc n_lis n_src n_bar n_net set_pc].
  - intros c i s q Hc Hi Hs. rewrite <- (I_count0 c i s q Hc Hi Hs). f_equal.
    unfold unissued. cbn [n_call n_pc set_pc].
    destruct (n_call st s <? c); [reflexivity|]. destruct (c <? n_call st s); [reflexivity|].
    destruct (Nat.eq_dec s r) as [->|Ne]; [|now rewrite fset_neq].
    rewrite fset_eq. destruct Hor as [E|E].
    + rewrite E. destruct p; try reflexivity; destruct Hp.
    + destruct (n_pc st r), p; try reflexivity; try destruct E; destruct Hp.
  - exact I_net0.
  - intros q l. destruct (Nat.eq_dec q r) as [->|Ne]; [rewrite fset_eq|rewrite fset_neq by exact Ne; apply I_issue0].
    intros ->. destruct Hp.
  - intros q c Hb. destruct (I_bar0 q c Hb) as (H1 & H2). split; [|exact H2].
    destruct (Nat.eq_dec q r) as [->|Ne]; [rewrite fset_eq|now rewrite fset_neq].
    destruct H1 as [H1|(H1 & _)]; [now left|right; split; [exact H1|]]. destruct p; try destruct Hp; exact I.
  - intros q c Hq H. apply (I_all0 q c Hq). destruct H as [H|(H & j & Hj)]; [now left|right].
    split; [exact H|]. destruct (Nat.eq_dec q r) as [->|Ne].
    + rewrite fset_eq in Hj. subst p. destruct Hp.
    + rewrite fset_neq in Hj by exact Ne. eauto.
  - intros q c i. specialize (I_lis0 q c i). unfold lis_ok in *. cbn [n_call n_pc n_lis set_pc].
    destruct ((q <? P) && (i <? K c) && (c =? n_call st q)); [|exact I_lis0].
    destruct (Nat.eq_dec q r) as [->|Ne]; [rewrite fset_eq|now rewrite fset_neq].
    destruct (n_pc st r), p; try destruct Hl; try destruct Hp; exact I_lis0.
  - intro q. destruct (I_call0 q) as (H1 & H2). split; [exact H1|].
    destruct (Nat.eq_dec q r) as [->|Ne]; [|rewrite fset_neq by exact Ne; exact H2]. intros _. now apply H2.
  - intro q. destruct (Nat.eq_dec q r) as [->|Ne]; [rewrite fset_eq|rewrite fset_neq by exact Ne; apply I_pc0].
    destruct p; auto; destruct Hp.
  - exact I_src0.
Qed.

Lemma lcnt_zero_or s l : lcnt s l = 0 \/ l = LMatched s.
Proof. destruct l; cbn; auto. destruct (Nat.eqb_spec s source); subst; auto. Qed.

Lemma tag_of_net st c i s d : Inv st -> c < C -> i < K c -> In (s, tag c i, d) (n_net st) ->
  s < P /\ d < P /\ In d (edges c i s).
Proof.
  intros HI Hc Hi H. destruct (I_net _ HI _ H) as (c' & s' & Hc' & Hs' & i' & d' & E & Hi' & Hd').
  injection E as -> Et ->. destruct (tag_inj c i c' i') as (-> & ->); auto. repeat split; auto.
  eapply edges_valid; eauto.
Qed.

Lemma sub_net {A} (n1 n2 : list A) x y : In y (n1 ++ n2) -> In y (n1 ++ x :: n2).
Proof. rewrite !in_app_iff. cbn. tauto. Qed.

Ltac fs q r := destruct (Nat.eq_dec q r) as [->|?]; [rewrite ?fset_eq in *|rewrite ?fset_neq in * by assumption].

Lemma fset3_eq {A} (f : nat -> nat -> nat -> A) r c i v : fset3 f r c i v r c i = v.
Proof. unfold fset3. now rewrite !Nat.eqb_refl. Qed.

Lemma fset3_cases {A} (f : nat -> nat -> nat -> A) r c i v r' c' i' :
  (r' = r /\ c' = c /\ i' = i /\ fset3 f r c i v r' c' i' = v) \/
  (~ (r' = r /\ c' = c /\ i' = i) /\ fset3 f r c i v r' c' i' = f r' c' i').
Proof.
  unfold fset3. destruct (Nat.eqb_spec r' r), (Nat.eqb_spec c' c), (Nat.eqb_spec i' i); cbn;
    [left; auto|right; split; [tauto|reflexivity]..].
Qed.

Lemma lis_posted st r c i : Inv st -> n_lis st r c i <> LNone ->
  r < P /\ i < K c /\ c = n_call st r /\ c < C /\ n_pc st r <> Idle.
Proof.
  intros HI H. pose proof (I_lis _ HI r c i) as L. unfold lis_ok in L.
  destruct (Nat.ltb_spec r P), (Nat.ltb_spec i (K c)), (Nat.eqb_spec c (n_call st r)); cbn in L; try contradiction.
  assert (n_pc st r <> Idle) by (intro E; rewrite E in L; contradiction).
  repeat split; auto. subst c. now apply (I_call _ HI).
Qed.

(** Replacing a present listener by another present one. *)
Lemma lis_ok_swap st st' r0 c0 i0 l : (forall r c i, lis_ok st r c i) ->
  n_call st' = n_call st -> n_pc st' = n_pc st ->
  n_lis st' = fset3 (n_lis st) r0 c0 i0 l -> n_lis st r0 c0 i0 <> LNone -> l <> LNone ->
  forall r c i, lis_ok st' r c i.
Proof.
  intros H Ec Ep El Hn Hl r c i. specialize (H r c i). unfold lis_ok in *. rewrite Ec, Ep, El.
  destruct (fset3_cases (n_lis st) r0 c0 i0 l r c i) as [(-> & -> & -> & ->)|(_ & ->)]; [|exact H].
  destruct (_ && _); [|contradiction]. destruct (n_pc st r0); auto; try contradiction.
  destruct (i0 <? i); [contradiction|exact Hl].
Qed.

Lemma inv_step st st' : Inv st -> nstep st st' -> Inv st'.
Proof.
  intros HI Hs. inversion Hs; subst; clear Hs.
  - (* NEnter *)
    rename H into Hr, H0 into HC, H1 into Hpc. destruct HI.
    constructor; cbn [n_call n_pc n_lis n_src n_bar n_net].
    + intros c i s q Hc Hi Hs. specialize (I_count0 c i s q Hc Hi Hs).
      assert (E1 : lcnt s (if (q =? r) && (c =? n_call st r) && (i <? K c) then LPosted else n_lis st q c i)
                   = lcnt s (n_lis st q c i)).
      { destruct (Nat.eqb_spec q r) as [->|]; [|reflexivity].
        destruct (Nat.eqb_spec c (n_call st r)) as [->|]; [|reflexivity].
        destruct (Nat.ltb_spec i (K (n_call st r))); [|lia]. cbn.
        specialize (I_lis0 r (n_call st r) i). unfold lis_ok in I_lis0.
        rewrite Nat.eqb_refl, Hpc in I_lis0.
        destruct (Nat.ltb_spec r P); [|lia]. destruct (Nat.ltb_spec i (K (n_call st r))); [|lia].
        cbn in I_lis0. now rewrite I_lis0. }
      rewrite E1, <- I_count0. f_equal. unfold unissued. cbn [n_call n_pc].
      destruct (n_call st s <? c) eqn:L1; [reflexivity|]. destruct (c <? n_call st s) eqn:L2; [reflexivity|].
      fs s r; [|reflexivity]. rewrite Hpc.
      assert (c = n_call st r) as -> by (apply Nat.ltb_ge in L1; apply Nat.ltb_ge in L2; lia).
      now rewrite cnt_flat.
    + exact I_net0.
    + intros q l. fs q r; [|apply I_issue0]. intro E. injection E as <-. intros m Hm. now apply in_sends.
    + intros q c Hb. destruct (I_bar0 q c Hb) as (H1 & H2). split; [|exact H2].
      fs q r; [|exact H1]. destruct H1 as [H1|(H1 & H1')]; [now left|]. rewrite Hpc in H1'. destruct H1'.
    + intros q c Hq H. apply (I_all0 q c Hq). destruct H as [H|(H & j & Hj)]; [now left|right].
      split; [exact H|]. fs q r; [discriminate|eauto].
    + intros q c i. specialize (I_lis0 q c i). unfold lis_ok in *. cbn [n_call n_pc n_lis].
      fs q r.
      * destruct (Nat.ltb_spec r P), (Nat.ltb_spec i (K c)), (Nat.eqb_spec c (n_call st r));
          rewrite ?Nat.eqb_refl; cbn in *; try exact I_lis0; try discriminate; try lia.
      * destruct (Nat.eqb_spec q r); [contradiction|]. cbn [andb]. exact I_lis0.
    + intro q. destruct (I_call0 q) as (H1 & H2). split; [exact H1|]. fs q r; auto.
    + intro q. fs q r; [exact I|apply I_pc0].
    + intros q c i s [H|H]; [eauto|]. apply (I_src0 q c i s). right.
      destruct ((q =? r) && (c =? n_call st r) && (i <? K c)); [discriminate|exact H].
  - (* NIssue *)
    rename H into Hr, H0 into Hpc. destruct HI.
    pose proof (I_issue0 _ _ Hpc m (or_introl eq_refl)) as (i0 & d0 & Em & Hi0 & Hd0).
    assert (HC : n_call st r < C) by (apply I_call0; congruence).
    constructor; cbn [n_call n_pc n_lis n_src n_bar n_net].
    + intros c i s q Hc Hi Hs. rewrite <- (I_count0 c i s q Hc Hi Hs), cnt_app, cnt_cons.
      unfold unissued. cbn [n_call n_pc].
      destruct (Nat.eq_dec s r) as [->|Ne].
      * rewrite fset_eq, Hpc. destruct (n_call st r <? c) eqn:L1; [|destruct (c <? n_call st r) eqn:L2].
        -- replace (msg_eqb (r, tag c i, q) m) with false; [cbn; lia|].
           symmetry. apply not_true_iff_false. rewrite msg_eqb_eq. intro E. rewrite Em in E. injection E as Et _.
           apply Nat.ltb_lt in L1. destruct (tag_inj c i (n_call st r) i0); auto. lia.
        -- replace (msg_eqb (r, tag c i, q) m) with false; [cbn; lia|].
           symmetry. apply not_true_iff_false. rewrite msg_eqb_eq. intro E. rewrite Em in E. injection E as Et _.
           apply Nat.ltb_lt in L2. destruct (tag_inj c i (n_call st r) i0); auto. lia.
        -- rewrite cnt_cons. cbn [cnt countb]. lia.
      * rewrite fset_neq by exact Ne.
        replace (msg_eqb (s, tag c i, q) m) with false; [cbn; lia|].
        symmetry. apply not_true_iff_false. rewrite msg_eqb_eq. intro E. rewrite Em in E. injection E as E _. auto.
    + intros m' Hm. apply in_app_iff in Hm as [Hm|[<-|[]]]; [auto|].
      exists (n_call st r), r. repeat split; auto. exists i0, d0. auto.
    + intros q l'. fs q r; [|apply I_issue0]. intro E. injection E as <-. intros m' Hm.
      apply (I_issue0 _ _ Hpc). now right.
    + intros q c Hb. destruct (I_bar0 q c Hb) as (H1 & H2). split.
      * fs q r; [|exact H1]. destruct H1 as [H1|(H1 & H1')]; [now left|]. rewrite Hpc in H1'. destruct H1'.
      * intros i d Hi H. apply in_app_iff in H as [H|[H|[]]]; [now apply (H2 i d)|].
        rewrite Em in H. injection H as <- Et _.
        destruct H1 as [H1|(H1 & H1')]; [|rewrite Hpc in H1'; destruct H1'].
        destruct (tag_inj (n_call st r) i0 c i) as (E & _); auto; lia.
    + intros q c Hq H. apply (I_all0 q c Hq). destruct H as [H|(H & j & Hj)]; [now left|right].
      split; [exact H|]. fs q r; [discriminate|eauto].
    + intros q c i. specialize (I_lis0 q c i). unfold lis_ok in *. cbn [n_call n_pc n_lis].
      destruct (_ && _); [|exact I_lis0]. fs q r; [|exact I_lis0]. now rewrite Hpc in I_lis0.
    + intro q. destruct (I_call0 q) as (H1 & H2). split; [exact H1|]. fs q r; auto.
    + intro q. fs q r; [exact I|apply I_pc0].
    + exact I_src0.
  - (* NIssued *)
    apply inv_set_pc; [exact HI|rewrite H0; exact I|exact I|left; exact H0|lia].
  - (* NMatch *)
    rename H into Hnet, H0 into Hlis.
    destruct (lis_posted st d c i HI) as (Hd & Hi & Hcc & HcC & Hne); [congruence|].
    destruct (tag_of_net st c i s d HI HcC Hi) as (Hs & _ & _).
    { rewrite Hnet. apply in_app_iff. right. now left. }
    destruct HI. constructor; cbn [n_call n_pc n_lis n_src n_bar n_net].
    + intros c' i' s' q Hc' Hi' Hs'. rewrite <- (I_count0 c' i' s' q Hc' Hi' Hs'), Hnet, !cnt_app, cnt_cons.
      change (unissued _ s' c' i' q) with (unissued st s' c' i' q) at 1.
      destruct (fset3_cases (n_lis st) d c i (LMatched s) q c' i') as [(-> & -> & -> & ->)|(Hn & ->)].
      * rewrite Hlis. cbn [lcnt msg_eqb]. rewrite !Nat.eqb_refl, !andb_true_r. lia.
      * replace (msg_eqb (s', tag c' i', q) (s, tag c i, d)) with false; [lia|].
        symmetry. apply not_true_iff_false. rewrite msg_eqb_eq. intro E. injection E as -> Et ->.
        apply Hn. destruct (tag_inj c' i' c i); auto.
    + intros m Hm. apply I_net0. rewrite Hnet. now apply sub_net.
    + exact I_issue0.
    + intros q c' Hb. destruct (I_bar0 q c' Hb) as (H1 & H2). split; [exact H1|].
      intros i' d' Hi' H. apply (H2 i' d' Hi'). rewrite Hnet. now apply sub_net.
    + exact I_all0.
    + eapply lis_ok_swap with (st := st); eauto; try reflexivity; congruence.
    + exact I_call0.
    + exact I_pc0.
    + intros q c' i' s' H. destruct H as [H|H]; [eauto|].
      destruct (fset3_cases (n_lis st) d c i (LMatched s) q c' i') as [(-> & -> & -> & E)|(_ & E)];
        rewrite E in H; [injection H as <-; exact Hs|eauto].
  - (* NHit *)
    rename H into Hr, H0 into Hpc, H1 into Hi, H2 into Hlis. destruct HI.
    assert (HC : n_call st r < C) by (apply I_call0; congruence).
    constructor; cbn [n_call n_pc n_lis n_src n_bar n_net].
    + intros c' i' s' q Hc' Hi' Hs'. rewrite <- (I_count0 c' i' s' q Hc' Hi' Hs').
      change (unissued _ s' c' i' q) with (unissued st s' c' i' q) at 1.
      destruct (fset3_cases (n_lis st) r (n_call st r) i LPosted q c' i') as [(-> & -> & -> & ->)|(Hn & ->)].
      * rewrite fset3_eq, cn_app, cn_one, Hlis. cbn [lcnt]. lia.
      * destruct (fset3_cases (n_src st) r (n_call st r) i (n_src st r (n_call st r) i ++ [s]) q c' i')
          as [(-> & -> & -> & _)|(_ & ->)]; [tauto|lia].
    + exact I_net0.
    + exact I_issue0.
    + exact I_bar0.
    + exact I_all0.
    + eapply lis_ok_swap with (st := st); eauto; try reflexivity; congruence.
    + exact I_call0.
    + exact I_pc0.
    + intros q c' i' s' H.
      destruct (fset3_cases (n_src st) r (n_call st r) i (n_src st r (n_call st r) i ++ [s]) q c' i')
          as [(-> & -> & -> & E)|(Hn & E)]; rewrite E in H.
      * rewrite fset3_eq in H. destruct H as [H|H]; [|discriminate].
        apply in_app_iff in H as [H|[<-|[]]]; eauto.
      * destruct (fset3_cases (n_lis st) r (n_call st r) i LPosted q c' i') as [(-> & -> & -> & _)|(_ & E2)]; [tauto|].
        rewrite E2 in H. eauto.
  - (* NMiss *)
    apply inv_set_pc; [exact HI|rewrite H0; exact I|exact I|right; rewrite H0; exact I|exact H1].
  - (* NBranch *)
    apply inv_set_pc; [exact HI|rewrite H0; exact I| |right; rewrite H0; exact I|].
    + destruct (n_bar st r (n_call st r)); exact I.
    + destruct (n_bar st r (n_call st r)) eqn:E; auto.
  - (* NSendsDone *)
    rename H into Hr, H0 into Hpc, H1 into Hno. destruct HI.
    assert (HC : n_call st r < C) by (apply I_call0; congruence).
    constructor; cbn [n_call n_pc n_lis n_src n_bar n_net].
    + intros c i s q Hc Hi Hs. rewrite <- (I_count0 c i s q Hc Hi Hs). f_equal.
      unfold unissued. cbn [n_call n_pc]. fs s r; [|reflexivity]. now rewrite Hpc.
    + exact I_net0.
    + intros q l. fs q r; [discriminate|apply I_issue0].
    + intros q c Hb.
      destruct (Nat.eqb_spec q r) as [Eq|Ne]; [subst q|]; destruct (Nat.eqb_spec c (n_call st r)) as [Ecc|Nc];
        try subst c; cbn in Hb.
      * split; [|exact Hno]. right. rewrite fset_eq. split; [reflexivity|exact I].
      * destruct (I_bar0 r c Hb) as (H1 & H2). split; [|exact H2]. rewrite fset_eq.
        destruct H1 as [H1|(H1 & _)]; [now left|contradiction].
      * destruct (I_bar0 q _ Hb) as (H1 & H2). split; [|exact H2]. now rewrite fset_neq.
      * destruct (I_bar0 q c Hb) as (H1 & H2). split; [|exact H2]. now rewrite fset_neq.
    + intros q c Hq H q' Hq'. destruct ((q' =? r) && (c =? n_call st r)); [reflexivity|].
      apply (I_all0 q c Hq); [|exact Hq']. destruct H as [H|(H & j & Hj)]; [now left|right].
      split; [exact H|]. fs q r; [discriminate|eauto].
    + intros q c i. specialize (I_lis0 q c i). unfold lis_ok in *. cbn [n_call n_pc n_lis].
      destruct (_ && _); [|exact I_lis0]. fs q r; [|exact I_lis0]. now rewrite Hpc in I_lis0.
    + intro q. destruct (I_call0 q) as (H1 & H2). split; [exact H1|]. fs q r; auto.
    + intro q. specialize (I_pc0 q). fs q r; [lia|].
      destruct (Nat.eqb_spec q r); [contradiction|]. exact I_pc0.
    + exact I_src0.
  - (* NSendsNot *)
    apply inv_set_pc; [exact HI|rewrite H0; exact I|exact I|right; rewrite H0; exact I|lia].
  - (* NBarrierDone *)
    rename H into Hr, H0 into Hpc, H1 into Hall. destruct HI.
    assert (HC : n_call st r < C) by (apply I_call0; congruence).
    constructor; cbn [n_call n_pc n_lis n_src n_bar n_net set_pc].
    + intros c i s q Hc Hi Hs. rewrite <- (I_count0 c i s q Hc Hi Hs). f_equal.
      unfold unissued. cbn [n_call n_pc set_pc]. fs s r; [|reflexivity]. now rewrite Hpc.
    + exact I_net0.
    + intros q l. fs q r; [discriminate|apply I_issue0].
    + intros q c Hb. destruct (I_bar0 q c Hb) as (H1 & H2). split; [|exact H2].
      fs q r; [|exact H1]. destruct H1 as [H1|(H1 & _)]; [now left|right; split; [exact H1|exact I]].
    + intros q c Hq H. destruct H as [H|(H & j & Hj)]; [apply (I_all0 q c Hq); now left|].
      fs q r; [subst c; exact Hall|]. apply (I_all0 q c Hq). right. eauto.
    + intros q c i. specialize (I_lis0 q c i). unfold lis_ok in *. cbn [n_call n_pc n_lis set_pc].
      destruct (_ && _); [|exact I_lis0]. fs q r; [|exact I_lis0]. rewrite Hpc in I_lis0.
      destruct (Nat.ltb_spec i 0); [lia|exact I_lis0].
    + intro q. destruct (I_call0 q) as (H1 & H2). split; [exact H1|]. fs q r; auto.
    + intro q. specialize (I_pc0 q). fs q r; [lia|exact I_pc0].
    + exact I_src0.
  - (* NBarrierNot *)
    apply inv_set_pc; [exact HI|rewrite H0; exact I|exact I|right; rewrite H0; exact I|lia].
  - (* NCancelMatched *)
    rename H into Hr, H0 into Hpc, H1 into Hi, H2 into Hlis. destruct HI.
    assert (HC : n_call st r < C) by (apply I_call0; congruence).
    constructor; cbn [n_call n_pc n_lis n_src n_bar n_net].
    + intros c' i' s' q Hc' Hi' Hs'. rewrite <- (I_count0 c' i' s' q Hc' Hi' Hs').
      match goal with |- _ + ?u = _ => replace u with (unissued st s' c' i' q) end.
      2:{ unfold unissued. cbn [n_call n_pc]. fs s' r; [now rewrite Hpc|reflexivity]. }
      destruct (fset3_cases (n_lis st) r (n_call st r) i LNone q c' i') as [(-> & -> & -> & ->)|(Hn & ->)].
      * rewrite fset3_eq, cn_app, cn_one, Hlis. cbn [lcnt]. lia.
      * destruct (fset3_cases (n_src st) r (n_call st r) i (n_src st r (n_call st r) i ++ [s]) q c' i')
          as [(-> & -> & -> & _)|(_ & ->)]; [tauto|lia].
    + exact I_net0.
    + intros q l. fs q r; [discriminate|apply I_issue0].
    + intros q c Hb. destruct (I_bar0 q c Hb) as (H1 & H2). split; [|exact H2].
      fs q r; [|exact H1]. destruct H1 as [H1|(H1 & _)]; [now left|right; split; [exact H1|exact I]].
    + intros q c Hq H. apply (I_all0 q c Hq). destruct H as [H|(H & j & Hj)]; [now left|right].
      split; [exact H|]. fs q r; eauto.
    + intros q c i'. specialize (I_lis0 q c i'). unfold lis_ok in *. cbn [n_call n_pc n_lis].
      destruct (fset3_cases (n_lis st) r (n_call st r) i LNone q c i') as [(-> & -> & -> & ->)|(Hn & ->)].
      * destruct (_ && _); [|reflexivity]. rewrite fset_eq. destruct (Nat.ltb_spec i (S i)); [reflexivity|lia].
      * destruct (Nat.ltb_spec q P), (Nat.ltb_spec i' (K c)), (Nat.eqb_spec c (n_call st q)); cbn [andb] in *; try exact I_lis0.
        fs q r; [|exact I_lis0]. rewrite Hpc in I_lis0.
        assert (i' <> i) by (intros ->; apply Hn; auto).
        destruct (Nat.ltb_spec i' i), (Nat.ltb_spec i' (S i)); try exact I_lis0; lia.
    + intro q. destruct (I_call0 q) as (H1 & H2). split; [exact H1|]. fs q r; auto.
    + intro q. specialize (I_pc0 q). fs q r; [lia|exact I_pc0].
    + intros q c' i' s' H.
      destruct (fset3_cases (n_src st) r (n_call st r) i (n_src st r (n_call st r) i ++ [s]) q c' i')
          as [(-> & -> & -> & E)|(Hn & E)]; rewrite E in H.
      * rewrite fset3_eq in H. destruct H as [H|H]; [|discriminate].
        apply in_app_iff in H as [H|[<-|[]]]; eauto.
      * destruct (fset3_cases (n_lis st) r (n_call st r) i LNone q c' i') as [(-> & -> & -> & _)|(_ & E2)]; [tauto|].
        rewrite E2 in H. eauto.
  - (* NCancelFree *)
    rename H into Hr, H0 into Hpc, H1 into Hi, H2 into Hlis. destruct HI.
    assert (HC : n_call st r < C) by (apply I_call0; congruence).
    constructor; cbn [n_call n_pc n_lis n_src n_bar n_net].
    + intros c' i' s' q Hc' Hi' Hs'. rewrite <- (I_count0 c' i' s' q Hc' Hi' Hs').
      match goal with |- _ + ?u = _ => replace u with (unissued st s' c' i' q) end.
      2:{ unfold unissued. cbn [n_call n_pc]. fs s' r; [now rewrite Hpc|reflexivity]. }
      destruct (fset3_cases (n_lis st) r (n_call st r) i LNone q c' i') as [(-> & -> & -> & ->)|(Hn & ->)].
      * rewrite Hlis. reflexivity.
      * reflexivity.
    + exact I_net0.
    + intros q l. fs q r; [discriminate|apply I_issue0].
    + intros q c Hb. destruct (I_bar0 q c Hb) as (H1 & H2). split; [|exact H2].
      fs q r; [|exact H1]. destruct H1 as [H1|(H1 & _)]; [now left|right; split; [exact H1|exact I]].
    + intros q c Hq H. apply (I_all0 q c Hq). destruct H as [H|(H & j & Hj)]; [now left|right].
      split; [exact H|]. fs q r; eauto.
    + intros q c i'. specialize (I_lis0 q c i'). unfold lis_ok in *. cbn [n_call n_pc n_lis].
      destruct (fset3_cases (n_lis st) r (n_call st r) i LNone q c i') as [(-> & -> & -> & ->)|(Hn & ->)].
      * destruct (_ && _); [|reflexivity]. rewrite fset_eq. destruct (Nat.ltb_spec i (S i)); [reflexivity|lia].
      * destruct (Nat.ltb_spec q P), (Nat.ltb_spec i' (K c)), (Nat.eqb_spec c (n_call st q)); cbn [andb] in *; try exact I_lis0.
        fs q r; [|exact I_lis0]. rewrite Hpc in I_lis0.
        assert (i' <> i) by (intros ->; apply Hn; auto).
        destruct (Nat.ltb_spec i' i), (Nat.ltb_spec i' (S i)); try exact I_lis0; lia.
    + intro q. destruct (I_call0 q) as (H1 & H2). split; [exact H1|]. fs q r; auto.
    + intro q. specialize (I_pc0 q). fs q r; [lia|exact I_pc0].
    + intros q c' i' s' H. destruct H as [H|H]; [eauto|].
      destruct (fset3_cases (n_lis st) r (n_call st r) i LNone q c' i') as [(-> & -> & -> & E2)|(_ & E2)];
        rewrite E2 in H; [discriminate|eauto].
  - (* NReturn *)
    rename H into Hr, H0 into Hpc. destruct HI.
    assert (HC : n_call st r < C) by (apply I_call0; congruence).
    constructor; cbn [n_call n_pc n_lis n_src n_bar n_net].
    + intros c i s q Hc Hi Hs. rewrite <- (I_count0 c i s q Hc Hi Hs). f_equal.
      unfold unissued. cbn [n_call n_pc]. fs s r; [|reflexivity]. rewrite Hpc.
      destruct (Nat.ltb_spec (S (n_call st r)) c), (Nat.ltb_spec c (S (n_call st r))),
        (Nat.ltb_spec (n_call st r) c), (Nat.ltb_spec c (n_call st r)); try reflexivity; try lia.
    + exact I_net0.
    + intros q l. fs q r; [discriminate|apply I_issue0].
    + intros q c Hb. destruct (I_bar0 q c Hb) as (H1 & H2). split; [|exact H2].
      fs q r; [|exact H1]. left. lia.
    + intros q c Hq H. fs q r; [|now apply (I_all0 q c Hq)].
      apply (I_all0 r c Hq). destruct H as [H|(_ & j & Hj)]; [|discriminate].
      destruct (Nat.eq_dec c (n_call st r)) as [->|]; [right; eauto|left; lia].
    + intros q c i. specialize (I_lis0 q c i). unfold lis_ok in *. cbn [n_call n_pc n_lis].
      fs q r; [|exact I_lis0].
      destruct (Nat.ltb_spec r P), (Nat.ltb_spec i (K c)), (Nat.eqb_spec c (S (n_call st r))),
        (Nat.eqb_spec c (n_call st r)); cbn [andb] in *; try exact I_lis0; try lia.
      rewrite Hpc in I_lis0. subst c. destruct (Nat.ltb_spec i (K (n_call st r))); [exact I_lis0|lia].
    + intro q. destruct (I_call0 q) as (H1 & H2). fs q r; [|split; auto]. split; [lia|]. intro H; now destruct H.
    + intro q. specialize (I_pc0 q). fs q r; [exact I|exact I_pc0].
    + exact I_src0.
Qed.

Lemma inv_steps st st' : Inv st -> nsteps st st' -> Inv st'.
Proof. intros HI H. induction H; [exact HI|]. apply IHnsteps. eapply inv_step; eauto. Qed.

Lemma in_senders es r s : In s (senders P es r) <-> s < P /\ In r (es s).
Proof.
  unfold senders. rewrite in_flat_map. split.
  - intros (x & Hx & H). apply in_map_iff in H as (y & <- & H). apply filter_In in H as (H & E).
    apply Nat.eqb_eq in E. subst. apply in_seq in Hx. split; [lia|exact H].
  - intros (Hs & H). exists s. split; [apply in_seq; lia|]. apply in_map_iff. exists r. split; [reflexivity|].
    apply filter_In. split; [exact H|apply Nat.eqb_refl].
Qed.

Lemma cn_senders es r s : s < P -> cn s (senders P es r) = cn r (es s).
Proof.
  intro Hs. unfold senders.
  assert (G : forall n a, cn s (flat_map (fun s => map (fun _ => s) (filter (Nat.eqb r) (es s))) (seq a n))
     = if (a <=? s) && (s <? a + n) then cn r (es s) else 0).
  { induction n as [|n IH]; intro a; cbn [seq flat_map].
    - destruct (Nat.leb_spec a s), (Nat.ltb_spec s (a + 0)); cbn; auto; lia.
    - rewrite cn_app, IH.
      assert (E : cn s (map (fun _ => a) (filter (Nat.eqb r) (es a))) = if a =? s then cn r (es s) else 0).
      { destruct (Nat.eqb_spec a s) as [->|Ne].
        - clear. induction (es s) as [|e t IH]; [reflexivity|]. cbn [filter].
          destruct (Nat.eqb_spec r e) as [->|Ne]; cbn [map].
          + unfold cn in *. cbn. destruct (Nat.eq_dec s s), (Nat.eq_dec e e); try congruence; try lia.
          + unfold cn in *. cbn. destruct (Nat.eq_dec e r); [congruence|]. exact IH.
        - apply count_occ_not_In. intro H. apply in_map_iff in H as (_ & H & _). congruence. }
      rewrite E. clear E. destruct (Nat.eqb_spec a s) as [Ea|Ne]; [subst a|].
      + destruct (Nat.leb_spec s s), (Nat.ltb_spec s (s + S n)), (Nat.leb_spec (S s) s); cbn; lia.
      + destruct (Nat.leb_spec a s), (Nat.ltb_spec s (a + S n)), (Nat.leb_spec (S a) s),
          (Nat.ltb_spec s (S a + n)); cbn; lia. }
  rewrite G. destruct (Nat.leb_spec 0 s), (Nat.ltb_spec s (0 + P)); cbn; lia.
Qed.

Lemma nbx_safe st r c i : nsteps ninit st -> r < P -> i < K c -> c < n_call st r ->
  Permutation (n_src st r c i) (senders P (edges c i) r).
Proof.
  intros Hst Hr Hi Hc. pose proof (inv_steps _ _ inv_init Hst) as HI.
  assert (HcC : c < C) by (pose proof (I_call _ HI r); lia).
  apply (Permutation_count_occ Nat.eq_dec). intro s. fold (cn s (n_src st r c i)) (cn s (senders P (edges c i) r)).
  destruct (Nat.lt_ge_cases s P) as [Hs|Hs].
  - rewrite cn_senders by exact Hs. rewrite <- (I_count _ HI c i s r HcC Hi Hs).
    pose proof (I_all _ HI r c Hr (or_introl Hc)) as Hall.
    destruct (I_bar _ HI s c (Hall s Hs)) as (H1 & H2).
    rewrite cnt_zero by now apply H2.
    replace (unissued st s c i r) with 0.
    2:{ unfold unissued. destruct (Nat.ltb_spec (n_call st s) c), (Nat.ltb_spec c (n_call st s)); try reflexivity; destruct H1 as [H1|(H1' & H1)]; try lia.
        destruct (n_pc st s); auto; destruct H1. }
    pose proof (I_lis _ HI r c i) as L. unfold lis_ok in L.
    replace (c =? n_call st r) with false in L by (symmetry; apply Nat.eqb_neq; lia).
    rewrite andb_false_r in L. rewrite L. cbn. lia.
  - assert (E1 : cn s (n_src st r c i) = 0).
    { apply count_occ_not_In. intro H. pose proof (I_src _ HI r c i s (or_introl H)). lia. }
    rewrite E1. symmetry. apply count_occ_not_In. rewrite in_senders. lia.
Qed.

(** ** Every rank can finish *)

Lemma nsteps_trans a b c : nsteps a b -> nsteps b c -> nsteps a c.
Proof. induction 1; intro; [assumption|]. eapply NTrans; eauto. Qed.
Lemma nsteps_one a b : nstep a b -> nsteps a b.
Proof. intro H. eapply NTrans; [exact H|apply NRefl]. Qed.

(** Only the program counter of [r] differs. *)
Definition only_pc (r : nat) (st st' : nstate) : Prop :=
  n_call st' = n_call st /\ n_lis st' = n_lis st /\ n_src st' = n_src st /\ n_bar st' = n_bar st /\
  n_net st' = n_net st /\ forall q, q <> r -> n_pc st' q = n_pc st q.

Lemma only_pc_trans r a b c : only_pc r a b -> only_pc r b c -> only_pc r a c.
Proof.
  intros (H1 & H2 & H3 & H4 & H5 & H6) (G1 & G2 & G3 & G4 & G5 & G6).
  repeat split; try congruence. intros q Hq. rewrite G6, H6; auto.
Qed.
Lemma only_pc_refl r a : only_pc r a a.
Proof. repeat split. Qed.
Lemma only_pc_set r st p : only_pc r st (set_pc st r p).
Proof. repeat split. intros q Hq. cbn. now rewrite fset_neq. Qed.

Lemma drain_up st r k : forall i, r < P -> n_pc st r = Drain i -> i + k <= K (n_call st r) ->
  exists st', nsteps st st' /\ only_pc r st st' /\ n_pc st' r = Drain (i + k).
Proof.
  revert st; induction k as [|k IH]; intros st i Hr Hpc Hk.
  - exists st. rewrite Nat.add_0_r. split; [apply NRefl|]. split; [apply only_pc_refl|exact Hpc].
  - destruct (IH (set_pc st r (Drain (S i))) (S i)) as (st' & H1 & H2 & H3); auto.
    { cbn. now rewrite fset_eq. } { cbn. lia. }
    exists st'. split; [|split].
    + eapply NTrans; [apply NMiss with (r := r) (i := i); auto; lia|exact H1].
    + eapply only_pc_trans; [apply only_pc_set|exact H2].
    + rewrite H3. f_equal. lia.
Qed.

Lemma to_drain0 st r : Inv st -> r < P -> inloop (n_pc st r) ->
  exists st', nsteps st st' /\ only_pc r st st' /\ n_pc st' r = Drain 0.
Proof.
  intros HI Hr Hl.
  assert (G : forall st, (n_pc st r = CheckSends \/ n_pc st r = CheckBarrier) ->
     exists st', nsteps st st' /\ only_pc r st st' /\ n_pc st' r = Drain 0).
  { intros s [E|E]; exists (set_pc s r (Drain 0)).
    - split; [apply nsteps_one; now apply NSendsNot|]. split; [apply only_pc_set|cbn; apply fset_eq].
    - split; [apply nsteps_one; now apply NBarrierNot|]. split; [apply only_pc_set|cbn; apply fset_eq]. }
  pose proof (I_pc _ HI r) as Hp.
  destruct (n_pc st r) as [|l|j| | |j] eqn:E; try destruct Hl; [|apply G; auto|apply G; auto].
  destruct (drain_up st r (K (n_call st r) - j) j) as (st1 & A1 & A2 & A3); auto; [lia|].
  replace (j + (K (n_call st r) - j)) with (K (n_call st r)) in A3 by lia.
  assert (Ec : n_call st1 = n_call st) by apply A2.
  set (st2 := set_pc st1 r (if n_bar st1 r (n_call st1 r) then CheckBarrier else CheckSends)).
  destruct (G st2) as (st3 & B1 & B2 & B3).
  { cbn. rewrite fset_eq. destruct (n_bar st1 r (n_call st1 r)); auto. }
  exists st3. split; [|split; [|exact B3]].
  - eapply nsteps_trans; [exact A1|]. eapply NTrans; [|exact B1]. apply NBranch; auto. now rewrite Ec.
  - eapply only_pc_trans; [exact A2|]. eapply only_pc_trans; [apply only_pc_set|exact B2].
Qed.

(** A rank that has not issued all its sends of the current call can do so. *)
Lemma finish_issue st r : Inv st -> r < P -> n_call st r < C ->
  exists st', nsteps st st' /\ n_call st' = n_call st /\ past (n_pc st' r) /\
    (forall q, q <> r -> n_pc st' q = n_pc st q).
Proof.
  intros HI Hr HC.
  assert (G : forall l st, n_pc st r = Issue l -> exists st', nsteps st st' /\ n_call st' = n_call st
     /\ past (n_pc st' r) /\ (forall q, q <> r -> n_pc st' q = n_pc st q)).
  { induction l as [|m l IH]; intros s E.
    - exists (set_pc s r (Drain 0)). split; [apply nsteps_one; now apply NIssued|]. split; [reflexivity|].
      cbn. rewrite fset_eq. split; [exact I|]. intros q Hq. now rewrite fset_neq.
    - set (s1 := mkN (n_call s) (fset (n_pc s) r (Issue l)) (n_lis s) (n_src s) (n_bar s) (n_net s ++ [m])).
      destruct (IH s1) as (s' & H1 & H2 & H3 & H4); [cbn; apply fset_eq|].
      exists s'. split; [eapply NTrans; [eapply NIssue; eauto|exact H1]|]. split; [exact H2|]. split; [exact H3|].
      intros q Hq. rewrite H4 by exact Hq. cbn. now rewrite fset_neq. }
  destruct (n_pc st r) as [|l|j| | |j] eqn:E.
  - set (s1 := mkN (n_call st) (fset (n_pc st) r (Issue (sends (n_call st r) r)))
      (fun r' c' i' => if (r' =? r) && (c' =? n_call st r) && (i' <? K c') then LPosted
                       else n_lis st r' c' i') (n_src st) (n_bar st) (n_net st)).
    destruct (G (sends (n_call st r) r) s1) as (s' & H1 & H2 & H3 & H4); [cbn; apply fset_eq|].
    exists s'. split; [eapply NTrans; [apply NEnter with (r := r); auto|exact H1]|]. split; [exact H2|].
    split; [exact H3|]. intros q Hq. rewrite H4 by exact Hq. cbn. now rewrite fset_neq.
  - eapply G; eauto.
  - exists st. rewrite E. repeat split; auto. apply NRefl.
  - exists st. rewrite E. repeat split; auto. apply NRefl.
  - exists st. rewrite E. repeat split; auto. apply NRefl.
  - exists st. rewrite E. repeat split; auto. apply NRefl.
Qed.

Definition issued (c : nat) (st : nstate) (r : nat) : Prop :=
  c < n_call st r \/ c = n_call st r /\ past (n_pc st r).

Lemma finish_issues c st n : Inv st -> c < C -> n <= P -> (forall r, r < P -> c <= n_call st r) ->
  exists st', nsteps st st' /\ (forall r, n_call st r <= n_call st' r) /\
    forall r, r < n -> issued c st' r.
Proof.
  intros HI Hc. induction n as [|n IH]; intros Hn Hle.
  - exists st. split; [apply NRefl|]. split; [auto|]. lia.
  - destruct IH as (st1 & H1 & H2 & H3); [lia|exact Hle|].
    pose proof (inv_steps _ _ HI H1) as HI1.
    pose proof (H2 n) as Hn2. pose proof (Hle n ltac:(lia)) as Hn3.
    destruct (Nat.eq_dec (n_call st1 n) c) as [E|Ne].
    + destruct (finish_issue st1 n HI1) as (st2 & A1 & A2 & A3 & A4); [lia|lia|].
      exists st2. split; [eapply nsteps_trans; eauto|]. split; [intro q; now rewrite A2|].
      intros r Hr. unfold issued. rewrite A2. destruct (Nat.eq_dec r n) as [->|Nr].
      * right. split; [now symmetry|exact A3].
      * rewrite A4 by exact Nr. apply H3. lia.
    + exists st1. split; [exact H1|]. split; [exact H2|]. intros r Hr.
      destruct (Nat.eq_dec r n) as [->|Nr]; [left; lia|apply H3; lia].
Qed.

(** Messages of call [c] still in the network. *)
Definition of_call (c : nat) (m : msg) : bool :=
  existsb (fun i => snd (fst m) =? tag c i) (seq 0 (K c)).

Lemma match_one c st : Inv st -> c < C -> (forall r, r < P -> issued c st r) ->
  existsb (of_call c) (n_net st) = true ->
  exists st', nsteps st st' /\ n_call st' = n_call st /\ (forall r, r < P -> issued c st' r) /\
    countb (of_call c) (n_net st') < countb (of_call c) (n_net st).
Proof.
  intros HI Hc Hiss Hex. apply existsb_exists in Hex as ([[s t] d] & Hin & Hof).
  unfold of_call in Hof. apply existsb_exists in Hof as (i & Hi & Et). cbn in Et.
  apply Nat.eqb_eq in Et. subst t. apply in_seq in Hi.
  assert (HiK : i < K c) by lia.
  destruct (tag_of_net st c i s d HI Hc HiK Hin) as (Hs & Hd & _).
  (* the destination is in the loop of call c *)
  assert (Hnb : ~ (forall q, q < P -> n_bar st q c = true)).
  { intro Hall. destruct (I_bar _ HI s c (Hall s Hs)) as (_ & H2). exact (H2 i d HiK Hin). }
  destruct (Hiss d Hd) as [Hgt|(Ecd & Hpast)].
  { exfalso. apply Hnb. apply (I_all _ HI d c Hd). now left. }
  assert (Hloop : inloop (n_pc st d)).
  { destruct (n_pc st d) as [|l|j| | |j] eqn:E; try destruct Hpast; try exact I.
    exfalso. apply Hnb. apply (I_all _ HI d c Hd). right. eauto. }
  destruct (to_drain0 st d HI Hd Hloop) as (st1 & A1 & A2 & A3).
  assert (Ec1 : n_call st1 = n_call st) by apply A2.
  destruct (drain_up st1 d i 0 Hd A3) as (st2 & B1 & B2 & B3); [rewrite Ec1, <- Ecd; lia|].
  pose proof (only_pc_trans _ _ _ _ A2 B2) as (E1 & E2 & E3 & E4 & E5 & E6).
  assert (HI2 : Inv st2) by (eapply inv_steps; [exact HI|eapply nsteps_trans; eauto]).
  (* make the listener free *)
  assert (Hfree : exists st3, nsteps st2 st3 /\ n_call st3 = n_call st2 /\ n_pc st3 = n_pc st2 /\
            n_net st3 = n_net st2 /\ n_lis st3 d c i = LPosted).
  { destruct (n_lis st2 d c i) as [| |s0] eqn:EL.
    - exfalso. pose proof (I_lis _ HI2 d c i) as L. unfold lis_ok in L. rewrite E1 in L.
      rewrite B3 in L. destruct (Nat.ltb_spec d P); [|lia]. destruct (Nat.ltb_spec i (K c)); [|lia].
      destruct (Nat.eqb_spec c (n_call st d)); [|lia]. cbn in L. contradiction.
    - exists st2. repeat split; auto. apply NRefl.
    - assert (Ecc : n_call st2 d = c) by (rewrite E1; auto).
      eexists. split; [apply nsteps_one; eapply NHit with (r := d) (i := i) (s := s0); eauto|].
      + rewrite Ecc. lia.
      + now rewrite Ecc.
      + cbn. repeat split. rewrite Ecc. apply fset3_eq. }
  destruct Hfree as (st3 & C1 & C2 & C3 & C4 & C5).
  assert (Hin3 : In (s, tag c i, d) (n_net st3)) by (rewrite C4, E5; exact Hin).
  apply in_split in Hin3 as (n1 & n2 & En).
  eexists. split; [eapply nsteps_trans; [exact A1|]; eapply nsteps_trans; [exact B1|];
                   eapply nsteps_trans; [exact C1|]; apply nsteps_one; eapply NMatch; eauto|].
  cbn. split; [congruence|]. split.
  - intros r Hr. specialize (Hiss r Hr). unfold issued in *. cbn. rewrite C2, C3, E1.
    destruct (Nat.eq_dec r d) as [->|Ne].
    + right. split; [auto|]. rewrite B3. exact I.
    + rewrite E6 by exact Ne. exact Hiss.
  - rewrite <- E5, <- C4, En, !countb_app. cbn [countb].
    replace (of_call c (s, tag c i, d)) with true; [lia|]. symmetry. unfold of_call.
    apply existsb_exists. exists i. split; [apply in_seq; lia|apply Nat.eqb_refl].
Qed.

Lemma match_all c st : Inv st -> c < C -> (forall r, r < P -> issued c st r) ->
  exists st', nsteps st st' /\ n_call st' = n_call st /\ (forall r, r < P -> issued c st' r) /\
    existsb (of_call c) (n_net st') = false.
Proof.
  intros HI Hc. remember (countb (of_call c) (n_net st)) as k eqn:Ek. revert st HI Ek.
  induction k as [k IH] using lt_wf_ind. intros st HI Ek Hiss.
  destruct (existsb (of_call c) (n_net st)) eqn:Ex.
  - destruct (match_one c st HI Hc Hiss Ex) as (st1 & A1 & A2 & A3 & A4).
    destruct (IH _ ltac:(rewrite Ek; exact A4) st1) as (st2 & B1 & B2 & B3 & B4); auto.
    { eapply inv_steps; eauto. }
    exists st2. split; [eapply nsteps_trans; eauto|]. split; [congruence|auto].
  - exists st. repeat split; auto. apply NRefl.
Qed.

(** Everything matched: a rank can enter the barrier. *)
Lemma enter_barrier c st r : Inv st -> c < C -> r < P -> issued c st r ->
  existsb (of_call c) (n_net st) = false ->
  exists st', nsteps st st' /\ n_call st' = n_call st /\ n_net st' = n_net st /\
    n_bar st' r c = true /\ (forall q, n_bar st q c = true -> n_bar st' q c = true) /\
    (forall q, issued c st q -> issued c st' q).
Proof.
  intros HI Hc Hr Hiss Hnet.
  destruct (n_bar st r c) eqn:Eb.
  { exists st. repeat split; auto. apply NRefl. }
  assert (Hnall : ~ (forall q, q < P -> n_bar st q c = true)) by (intro H; rewrite H in Eb; [discriminate|auto]).
  destruct Hiss as [Hgt|(Ecd & Hpast)].
  { exfalso. apply Hnall. apply (I_all _ HI r c Hr). now left. }
  assert (Hloop : inloop (n_pc st r)).
  { destruct (n_pc st r) as [|l|j| | |j] eqn:E; try destruct Hpast; try exact I.
    exfalso. apply Hnall. apply (I_all _ HI r c Hr). right. eauto. }
  destruct (to_drain0 st r HI Hr Hloop) as (st1 & A1 & A2 & A3).
  destruct (drain_up st1 r (K (n_call st1 r)) 0 Hr A3) as (st2 & B1 & B2 & B3); [lia|].
  pose proof (only_pc_trans _ _ _ _ A2 B2) as (E1 & E2 & E3 & E4 & E5 & E6).
  assert (F1 : n_call st1 = n_call st) by apply A2. cbn in B3.
  set (st3 := set_pc st2 r (if n_bar st2 r (n_call st2 r) then CheckBarrier else CheckSends)).
  assert (S3 : nstep st2 st3) by (apply NBranch; auto; rewrite B3, E1, F1; reflexivity).
  assert (Epc : n_pc st3 r = CheckSends).
  { cbn. rewrite fset_eq, E1, E4, <- Ecd, Eb. reflexivity. }
  eexists. split; [eapply nsteps_trans; [exact A1|]; eapply nsteps_trans; [exact B1|];
      eapply NTrans; [exact S3|]; apply nsteps_one; apply NSendsDone with (r := r); auto|].
  - cbn. rewrite E1, <- Ecd, E5. intros i d Hi H.
    assert (existsb (of_call c) (n_net st) = true) as X; [|congruence].
    apply existsb_exists. exists (r, tag c i, d). split; [exact H|]. apply existsb_exists. exists i.
    split; [apply in_seq; lia|cbn; apply Nat.eqb_refl].
  - cbn. split; [exact E1|]. split; [exact E5|]. rewrite E1, <- Ecd, !Nat.eqb_refl. split; [reflexivity|].
    split.
    + intros q Hq. rewrite E4. destruct (_ && _); auto.
    + intros q Hq. unfold issued in *. cbn. rewrite ?E1. destruct (Nat.eq_dec q r) as [->|Ne].
      * right. rewrite fset_eq. split; [exact Ecd|exact I].
      * rewrite !fset_neq by exact Ne. rewrite E6 by exact Ne. exact Hq.
Qed.

Lemma enter_barriers c st n : Inv st -> c < C -> n <= P -> (forall r, r < P -> issued c st r) ->
  existsb (of_call c) (n_net st) = false ->
  exists st', nsteps st st' /\ n_call st' = n_call st /\ n_net st' = n_net st /\
    (forall r, r < P -> issued c st' r) /\ forall r, r < n -> n_bar st' r c = true.
Proof.
  intros HI Hc. induction n as [|n IH]; intros Hn Hiss Hnet.
  - exists st. repeat split; auto; [apply NRefl|lia].
  - destruct IH as (st1 & A1 & A2 & A3 & A4 & A5); auto; [lia|].
    destruct (enter_barrier c st1 n) as (st2 & B1 & B2 & B3 & B4 & B5 & B6); auto.
    { eapply inv_steps; eauto. } { now rewrite A3. }
    exists st2. split; [eapply nsteps_trans; eauto|]. split; [congruence|]. split; [congruence|].
    split; [auto|]. intros r Hr. destruct (Nat.eq_dec r n) as [->|]; [exact B4|apply B5, A5; lia].
Qed.

Lemma cancel_up c st r k : forall i, Inv st -> r < P -> n_call st r = c -> n_pc st r = Cancel i -> i + k = K c ->
  exists st', nsteps st st' /\ n_call st' = n_call st /\ n_bar st' = n_bar st /\
    n_pc st' r = Cancel (K c) /\ forall q, q <> r -> n_pc st' q = n_pc st q.
Proof.
  revert st; induction k as [|k IH]; intros st i HI Hr Hcall Hpc Hk.
  - exists st. rewrite Nat.add_0_r in Hk. subst i. repeat split; auto. apply NRefl.
  - pose proof (I_lis _ HI r c i) as L. unfold lis_ok in L. rewrite Hpc, <- Hcall in L.
    destruct (Nat.ltb_spec r P); [|rewrite Hcall in *; lia]. destruct (Nat.ltb_spec i (K (n_call st r))); [|rewrite Hcall in *; lia].
    rewrite Nat.eqb_refl in L. destruct (Nat.ltb_spec i i); [lia|]. cbn in L.
    assert (exists st1, nstep st st1 /\ n_call st1 = n_call st /\ n_bar st1 = n_bar st /\
              n_pc st1 = fset (n_pc st) r (Cancel (S i))) as (st1 & A1 & A2 & A3 & A4).
    { destruct (n_lis st r (n_call st r) i) as [| |s0] eqn:EL; [contradiction| |].
      - eexists. split; [eapply NCancelFree; eauto|]. auto.
      - eexists. split; [eapply NCancelMatched; eauto|]. auto. }
    destruct (IH st1 (S i)) as (st' & B1 & B2 & B3 & B4 & B5); auto.
    { eapply inv_step; eauto. } { now rewrite A2. } { rewrite A4. apply fset_eq. } { lia. }
    exists st'. split; [eapply NTrans; eauto|]. split; [congruence|]. split; [congruence|].
    split; [exact B4|]. intros q Hq. rewrite B5, A4 by exact Hq. now apply fset_neq.
Qed.

Lemma leave_call c st r : Inv st -> c < C -> r < P -> issued c st r ->
  (forall q, q < P -> n_bar st q c = true) ->
  exists st', nsteps st st' /\ (forall q, n_call st q <= n_call st' q) /\ c < n_call st' r /\
    (forall q, q < P -> n_bar st' q c = true) /\ (forall q, issued c st q -> issued c st' q).
Proof.
  intros HI Hc Hr Hiss Hall.
  destruct Hiss as [Hgt|(Ecd & Hpast)].
  { exists st. repeat split; auto. apply NRefl. }
  assert (Hcan : exists st1 j, nsteps st st1 /\ n_call st1 = n_call st /\ n_bar st1 = n_bar st /\
            n_pc st1 r = Cancel j /\ forall q, q <> r -> n_pc st1 q = n_pc st q).
  { destruct (n_pc st r) as [|l|j| | |j] eqn:E; try destruct Hpast;
      try (exists st, j; repeat split; auto; apply NRefl).
    all: assert (Hloop : inloop (n_pc st r)) by (rewrite E; exact I).
    all: destruct (to_drain0 st r HI Hr Hloop) as (st1 & A1 & A2 & A3).
    all: destruct (drain_up st1 r (K (n_call st1 r)) 0 Hr A3) as (st2 & B1 & B2 & B3); [lia|].
    all: pose proof (only_pc_trans _ _ _ _ A2 B2) as (E1 & E2 & E3 & E4 & E5 & E6).
    all: assert (F1 : n_call st1 = n_call st) by apply A2; cbn in B3.
    all: set (st3 := set_pc st2 r (if n_bar st2 r (n_call st2 r) then CheckBarrier else CheckSends)).
    all: assert (S3 : nstep st2 st3) by (apply NBranch; auto; rewrite B3, E1, F1; reflexivity).
    all: assert (Epc : n_pc st3 r = CheckBarrier) by (cbn; rewrite fset_eq, E1, E4, <- Ecd, Hall by exact Hr; reflexivity).
    all: exists (set_pc st3 r (Cancel 0)), 0; split; [eapply nsteps_trans; [exact A1|];
          eapply nsteps_trans; [exact B1|]; eapply NTrans; [exact S3|]; apply nsteps_one; apply NBarrierDone; auto|].
    all: cbn.
    all: try (rewrite E1, E4, <- Ecd; exact Hall).
    all: split; [exact E1|]; split; [exact E4|]; split; [apply fset_eq|].
    all: intros q Hq; rewrite !fset_neq by exact Hq; rewrite E6 by exact Hq; reflexivity. }
  destruct Hcan as (st1 & j & A1 & A2 & A3 & A4 & A5).
  pose proof (inv_steps _ _ HI A1) as HI1.
  pose proof (I_pc _ HI1 r) as Hj. rewrite A4, A2, <- Ecd in Hj.
  destruct (cancel_up c st1 r (K c - j) j HI1 Hr) as (st2 & B1 & B2 & B3 & B4 & B5); auto.
  { now rewrite A2. } { lia. }
  assert (Ec2 : n_call st2 = n_call st) by congruence.
  eexists. split; [eapply nsteps_trans; [exact A1|]; eapply nsteps_trans; [exact B1|];
     apply nsteps_one; apply NReturn with (r := r); auto; rewrite B4, Ec2, <- Ecd; reflexivity|].
  cbn. rewrite Ec2. split; [|split; [|split]].
  - intro q. destruct (Nat.eq_dec q r) as [->|Ne]; [rewrite fset_eq; lia|rewrite fset_neq by exact Ne; lia].
  - rewrite fset_eq. lia.
  - intros q Hq. rewrite B3, A3. auto.
  - intros q Hq. unfold issued in *. cbn. rewrite ?Ec2. destruct (Nat.eq_dec q r) as [->|Ne].
    + left. rewrite fset_eq. lia.
    + rewrite !fset_neq by exact Ne. rewrite B5, A5 by exact Ne. exact Hq.
Qed.

Lemma leave_calls c st n : Inv st -> c < C -> n <= P -> (forall r, r < P -> issued c st r) ->
  (forall q, q < P -> n_bar st q c = true) ->
  exists st', nsteps st st' /\ (forall q, n_call st q <= n_call st' q) /\
    (forall r, r < n -> c < n_call st' r) /\
    (forall q, q < P -> n_bar st' q c = true) /\ (forall r, r < P -> issued c st' r).
Proof.
  intros HI Hc. induction n as [|n IH]; intros Hn Hiss Hall.
  - exists st. split; [apply NRefl|]. split; [auto|]. split; [lia|auto].
  - destruct IH as (st1 & A1 & A2 & A3 & A4 & A5); auto; [lia|].
    destruct (leave_call c st1 n) as (st2 & B1 & B2 & B3 & B4 & B5); auto.
    { eapply inv_steps; eauto. }
    exists st2. split; [eapply nsteps_trans; eauto|]. split; [intro q; etransitivity; eauto|].
    split; [|auto]. intros r Hr. destruct (Nat.eq_dec r n) as [->|]; [exact B3|].
    pose proof (A3 r); pose proof (B2 r); lia.
Qed.

Lemma finish_call c st : Inv st -> c < C -> (forall r, r < P -> c <= n_call st r) ->
  exists st', nsteps st st' /\ forall r, r < P -> S c <= n_call st' r.
Proof.
  intros HI Hc Hle.
  destruct (finish_issues c st P HI Hc (le_n _) Hle) as (s1 & A1 & _ & A3).
  pose proof (inv_steps _ _ HI A1) as HI1.
  destruct (match_all c s1 HI1 Hc A3) as (s2 & B1 & B2 & B3 & B4).
  pose proof (inv_steps _ _ HI1 B1) as HI2.
  destruct (enter_barriers c s2 P HI2 Hc (le_n _) B3 B4) as (s3 & C1 & C2 & C3 & C4 & C5).
  pose proof (inv_steps _ _ HI2 C1) as HI3.
  destruct (leave_calls c s3 P HI3 Hc (le_n _) C4 C5) as (s4 & D1 & D2 & D3 & _).
  exists s4. split; [eapply nsteps_trans; [exact A1|]; eapply nsteps_trans; [exact B1|];
                     eapply nsteps_trans; [exact C1|exact D1]|].
  intros r Hr. apply D3. exact Hr.
Qed.

Lemma nbx_can_finish st : nsteps ninit st ->
  exists st', nsteps st st' /\ forall r, r < P -> n_call st' r = C.
Proof.
  intro Hst.
  assert (G : forall c, c <= C -> exists st', nsteps st st' /\ forall r, r < P -> c <= n_call st' r).
  { induction c as [|c IH]; intro Hc.
    - exists st. split; [apply NRefl|lia].
    - destruct IH as (s1 & A1 & A2); [lia|].
      destruct (finish_call c s1) as (s2 & B1 & B2); auto.
      { eapply inv_steps; [apply inv_init|eapply nsteps_trans; eauto]. }
      exists s2. split; [eapply nsteps_trans; eauto|exact B2]. }
  destruct (G C (le_n _)) as (st' & A1 & A2). exists st'. split; [exact A1|].
  intros r Hr. apply Nat.le_antisymm; [|auto].
  assert (HI : Inv st') by (eapply inv_steps; [apply inv_init|eapply nsteps_trans; eauto]).
  apply (I_call _ HI).
Qed.
End Proofs.
