(** Proofs for Marking.v. *)
From Verif Require Import Base BaseProofs Algo AlgoProofs World WorldProofs IndexMap IndexMapSpec IndexMapProofs ImSharedProofs
  LocateSpec LocateProofs MatrixPar Marking MarkingSpec MarkingRanks.
Open Scope nat_scope.

Section Proofs.
Variables (P : nat) (nbx : (nat -> list nat) -> nat -> list nat) (maps : nat -> imap).
Variables (f2e : nat -> list (list nat)) (long : nat -> list nat).
Hypothesis Hnbx : nbx_oracle P nbx.
Hypothesis Hok : maps_ok P maps.
Hypothesis Hf : forall r, r < P -> faces_ok (maps r) (f2e r) (long r).

Notation nedges r := (edge_count (maps r)).
Notation nbrs := (edge_nbrs P nbx maps).
Notation pend := (pend P nbx maps).
Notation shares := (shares maps).
Notation state := (list bool * list (list nat))%type.

Definition st_ok (r : nat) (s : state) : Prop :=
  length (fst s) = nedges r /\ length (snd s) = length (nbrs r) /\
  forall q e, pend r (snd s) q e -> nth_error (fst s) e = Some true /\ shares r e q.

(** ** Communication *)
Lemma blocks_map (ks : list nat) (u : list (list nat)) : NoDup ks -> length u = length ks ->
  map (fun d => nth (nbpos ks d) u []) ks = u.
Proof.
  intros Hn Hl. apply nth_error_ext. intro i. rewrite nth_error_map. destruct (nth_error ks i) as [d|] eqn:E; cbn [option_map].
  - unfold nbpos. rewrite (index_in_nth d ks i Hn E). destruct (nth_error_lt u i) as (b & Hb); [rewrite Hl; eapply nth_error_bound; eauto|].
    rewrite Hb. f_equal. now apply nth_error_nth.
  - symmetry. apply nth_error_None. rewrite Hl. now apply nth_error_None.
Qed.

Definition gof (r e : nat) : nat := match local_to_global (maps r) e with Some g => g | None => 0 end.

Lemma set_all r (data : list nat) : r < P -> (forall g, In g data -> exists e, at_global (maps r) e g) ->
  forall m, length m = nedges r -> exists m',
    ofold (fun marks g => let l := global_to_local (maps r) g in
                          if (l =? -1)%Z then None else upd marks (Z.to_nat l) true) data m = Some m' /\
    length m' = nedges r /\ countb negb m' <= countb negb m /\
    forall e, nth_error m' e = Some true <-> nth_error m e = Some true \/ exists g, In g data /\ at_global (maps r) e g.
Proof.
  intro Hr. induction data as [|g data IH]; intros Hd m Lm.
  - exists m. split; [reflexivity|]. split; [exact Lm|]. split; [lia|]. intro e. split; [auto|intros [H|(g & [] & _)]; exact H].
  - cbn [ofold]. destruct (Hd g (or_introl eq_refl)) as (e0 & He0).
    assert (Eg : global_to_local (maps r) g = Z.of_nat e0).
    { apply g2l_l2g; [exact (mo_range _ _ Hok r Hr)|exact (mo_once _ _ Hok r Hr)|exact (fun x => ghost_not_owned P maps Hok r x Hr)|now apply l2g_at]. }
    rewrite Eg. cbv zeta. destruct (Z.eqb_spec (Z.of_nat e0) (-1)); [lia|]. rewrite Nat2Z.id.
    destruct (upd_some m e0 true) as (m1 & E1); [rewrite Lm; eapply at_lt; eauto|]. rewrite E1. cbn [obind].
    destruct (IH (fun g' Hg' => Hd g' (or_intror Hg')) m1) as (m' & E & L & C & N); [rewrite (upd_length _ _ _ _ E1); exact Lm|].
    exists m'. split; [exact E|]. split; [exact L|]. split; [pose proof (countb_upd_le _ _ _ E1); lia|].
    intro e. rewrite N, (upd_mono _ _ _ e E1). split.
    + intros [[->|H]|(g' & Hg' & H)]; [right; exists g; split; [now left|exact He0]|now left|right; exists g'; split; [now right|exact H]].
    + intros [H|(g' & [<-|Hg'] & H)]; [auto|left; left; exact (at_inj P maps Hok r _ _ _ Hr H He0)|right; eauto].
Qed.

Definition mk (W : list state) (r e : nat) : Prop := exists s, nth_error W r = Some s /\ nth_error (fst s) e = Some true.
Definition pd (W : list state) (r q e : nat) : Prop := exists s, nth_error W r = Some s /\ pend r (snd s) q e.

Lemma update_ok W r : r < P -> (forall q, q < P -> exists s, nth_error W q = Some s /\ st_ok q s) ->
  exists m s, update_edges P nbx maps (nth_error W) r = Some m /\ nth_error W r = Some s /\
    length m = nedges r /\ countb negb m <= countb negb (fst s) /\
    forall e, nth_error m e = Some true <-> mk W r e \/ exists q x g, q < P /\ pd W q r x /\ at_global (maps q) x g /\ at_global (maps r) e g.
Proof.
  intros Hr HW. unfold update_edges.
  set (us := fun q => match nth_error W q with Some s => snd s | None => [] end).
  set (B := fun s d => map (gof s) (nth (nbpos (nbrs s) d) (us s) [])).
  rewrite (exchange_spec P nbrs nbrs _ B r); [|now apply nbrs_graph|exact Hr|].
  2:{ intros s Hs. apply nbrs_in in Hs as (Hs & _); try assumption. destruct (HW s Hs) as ((m & u) & Es & Lm & Lu & Hp). cbn [fst snd] in *.
      assert (Eus : us s = u) by (unfold us; now rewrite Es).
      rewrite Es. cbn [obind snd]. rewrite (omap_map _ (map (gof s))).
      2:{ intros b Hb. apply omap_map. intros e He. apply In_nth_error in Hb as (k & Hb).
          destruct (nth_error_lt (nbrs s) k) as (q & Hq); [rewrite <- Lu; eapply nth_error_bound; eauto|].
          destruct (Hp q e) as (Hm & _); [exists k, b; auto|]. apply nth_error_bound in Hm. rewrite Lm in Hm.
          unfold gof. destruct (l2g_ex (maps s) e Hm) as (g & ->). reflexivity. }
      cbn [obind].
      assert (EB : map (B s) (nbrs s) = map (map (gof s)) u).
      { unfold B. rewrite <- (map_map (fun d => nth (nbpos (nbrs s) d) (us s) []) (map (gof s))). f_equal.
        rewrite Eus. apply blocks_map; [now apply nbrs_NoDup|exact Lu]. }
      assert (EL : map (fun d => length (B s d)) (nbrs s) = map (@length nat) u).
      { rewrite <- (map_map (B s) (@length nat)), EB, map_map. apply map_ext. intro. apply map_length. }
      rewrite EB, EL. reflexivity. }
  cbn [obind]. destruct (HW r Hr) as ((m & u) & Er & Lm & Lu & Hp). rewrite Er. cbn [obind fst snd] in *.
  assert (Hdata : forall g, In g (concat (map (fun s => B s r) (nbrs r))) <->
    exists q x, q < P /\ pd W q r x /\ at_global (maps q) x g).
  { intro g. rewrite in_concat. split.
    - intros (l & Hl & Hg). apply in_map_iff in Hl as (q & <- & Hq). unfold B in Hg. apply in_map_iff in Hg as (x & <- & Hx).
      apply nbrs_in in Hq as (Hq & Hne & e & Hs); try assumption. destruct (HW q Hq) as ((mq & uq) & Eq & Lmq & Luq & Hpq). cbn [fst snd] in *.
      assert (Hrq : In r (nbrs q)).
      { apply nbrs_in; try assumption. split; [exact Hr|]. split; [congruence|]. eapply shares_sym; eauto. }
      assert (Hpd : pend q uq r x).
      { exists (nbpos (nbrs q) r), (nth (nbpos (nbrs q) r) (us q) []). split; [now apply nbpos_ok|]. split; [|exact Hx].
        unfold us. rewrite Eq. cbn [snd]. apply nth_error_nth'. rewrite Luq. eapply nth_error_bound. now apply nbpos_ok. }
      exists q, x. split; [exact Hq|]. split; [exists (mq, uq); auto|].
      destruct (Hpq _ _ Hpd) as (_ & g & e' & Hat & _). unfold gof. apply l2g_at in Hat as E. rewrite E. exact Hat.
    - intros (q & x & Hq & (s & Es & k & b & Hk & Hb & Hx) & Hat). exists (B q r). split.
      + apply in_map_iff. exists q. split; [reflexivity|]. apply nbrs_in; try assumption. pose proof (nth_error_In _ _ Hk) as Hi.
        apply nbrs_in in Hi as (_ & Hne & e & He); try assumption. split; [exact Hq|]. split; [congruence|]. eapply shares_sym; eauto.
      + unfold B. apply in_map_iff. exists x. split; [unfold gof; apply l2g_at in Hat as E; now rewrite E|].
        unfold nbpos. rewrite (index_in_nth r (nbrs q) k (nbrs_NoDup P nbx maps Hnbx Hok q Hq) Hk). unfold us. rewrite Es.
        now rewrite (nth_error_nth _ _ _ Hb). }
  destruct (set_all r (concat (map (fun s => B s r) (nbrs r))) Hr) with (m := m) as (m' & E & L & C & N).
  { intros g Hg. apply Hdata in Hg as (q & x & Hq & (s & Es & Hpd) & Hat). destruct (HW q Hq) as (s' & Es' & _ & _ & Hpq).
    rewrite Es in Es'. injection Es' as <-. destruct (Hpq _ _ Hpd) as (_ & g' & e' & A & A'). exists e'.
    now rewrite (at_fun _ _ _ _ Hat A). }
  { exact Lm. }
  exists m', (m, u). split; [exact E|]. split; [first [exact Er|reflexivity]|]. split; [exact L|]. split; [exact C|].
  intro e. rewrite N. unfold mk. rewrite Er. split.
  - intros [H|(g & Hg & H)]; [left; eauto|right]. apply Hdata in Hg as (q & x & Hq & A & A'). exists q, x, g. auto.
  - intros [(s & [= <-] & H)|(q & x & g & Hq & A & A' & A'')]; [now left|right]. exists g. split; [apply Hdata; eauto|exact A''].
Qed.

(** ** One sweep over the faces *)
Lemma omap_marks m es : (forall e, In e es -> e < length m) -> exists ms, omap (nth_error m) es = Some ms /\
  (existsb (fun b => b) ms = true <-> exists e, In e es /\ nth_error m e = Some true).
Proof.
  intro H. induction es as [|e es IH].
  - exists []. split; [reflexivity|]. cbn. split; [discriminate|intros (e & [] & _)].
  - destruct IH as (ms & E & HI); [intros; apply H; now right|]. destruct (nth_error_lt m e) as (b & Hb); [apply H; now left|].
    cbn [omap]. rewrite Hb, E. cbn [obind]. exists (b :: ms). split; [reflexivity|]. cbn [existsb]. rewrite orb_true_iff, HI. split.
    + intros [->|(x & Hx & Ex)]; [exists e; split; [now left|exact Hb]|exists x; split; [now right|exact Ex]].
    + intros (x & [<-|Hx] & Ex); [left; congruence|right; eauto].
Qed.

Definition closed_at (r : nat) (m : list bool) (f : nat) : Prop :=
  forall es l e, nth_error (f2e r) f = Some es -> nth_error (long r) f = Some l -> In e es ->
    nth_error m e = Some true -> nth_error m l = Some true.

Lemma sweep_ok r m : r < P -> length m = nedges r ->
  exists m' u c, sweep P nbx maps f2e long r m = Some ((m', u), c) /\
    length m' = nedges r /\ length u = length (nbrs r) /\
    (forall e, nth_error m e = Some true -> nth_error m' e = Some true) /\
    (forall q e, pend r u q e <-> nth_error m' e = Some true /\ nth_error m e = Some false /\ In q (nbrs r) /\ shares r e q) /\
    countb negb m' + c = countb negb m /\ c <= length (f2e r) /\
    (c = 0 -> m' = m /\ forall f, f < length (f2e r) -> closed_at r m f) /\
    (forall S : nat -> Prop, (forall e, nth_error m e = Some true -> S e) ->
       (forall f es l e, nth_error (f2e r) f = Some es -> nth_error (long r) f = Some l -> In e es -> S e -> S l) ->
       forall e, nth_error m' e = Some true -> S e).
Proof.
  intros Hr Lm. unfold sweep. destruct (edge_ranks P nbx maps r) as [(ranks, links)|] eqn:Er.
  2:{ destruct (edge_ranks_ok P nbx maps Hnbx Hok r Hr) as (? & ? & E & _). congruence. }
  assert (En : nbrs r = ranks) by (unfold edge_nbrs; now rewrite Er). cbn [obind]. rewrite En.
  pose (Inv := fun (p : list nat) (a : state * nat) => let '((m', u), c) := a in
    length m' = nedges r /\ length u = length ranks /\
    (forall e, nth_error m e = Some true -> nth_error m' e = Some true) /\
    (forall q e, pend r u q e <-> nth_error m' e = Some true /\ nth_error m e = Some false /\ In q (nbrs r) /\ shares r e q) /\
    countb negb m' + c = countb negb m /\ c <= length p /\
    (c = 0 -> m' = m /\ forall f, In f p -> closed_at r m f) /\
    (forall S : nat -> Prop, (forall e, nth_error m e = Some true -> S e) ->
       (forall f es l e, nth_error (f2e r) f = Some es -> nth_error (long r) f = Some l -> In e es -> S e -> S l) ->
       forall e, nth_error m' e = Some true -> S e)).
  destruct (ofold_prefix_ind (face_step f2e long r links) Inv (seq 0 (length (f2e r))) ((m, repeat [] (length ranks)), 0)) as (((m', u), c) & E & HI).
  - split; [exact Lm|]. split; [apply repeat_length|]. split; [auto|]. split.
    { intros q e. split; [intro H; destruct (pend_nil _ _ _ _ _ _ _ H)|intros (A & B & _); congruence]. }
    split; [lia|]. split; [cbn; lia|]. split; [intros _; split; [reflexivity|intros f []]|auto].
  - intros p f t ((m1, u1), c1) Ep (L1 & L2 & Hmono & Hpend & Hc & Hcp & H0 & HS).
    assert (Hff : f < length (f2e r)).
    { assert (In f (seq 0 (length (f2e r)))) as H by (rewrite Ep; apply in_elt). apply in_seq in H. lia. }
    destruct (nth_error_lt (f2e r) f Hff) as (es & Ees).
    destruct (nth_error_lt (long r) f) as (l & El); [rewrite (fa_long _ _ _ (Hf r Hr)); exact Hff|].
    assert (Hl : l < nedges r) by exact (fa_longs _ _ _ (Hf r Hr) l (nth_error_In _ _ El)).
    unfold face_step. rewrite El. cbn [obind fst snd]. destruct (nth_error_lt m1 l) as (b & Eb); [lia|]. rewrite Eb. cbn [obind].
    rewrite Ees. cbn [obind]. destruct b.
    { eexists. split; [reflexivity|]. split; [exact L1|]. split; [exact L2|]. split; [exact Hmono|]. split; [exact Hpend|].
      split; [exact Hc|]. split; [rewrite app_length; lia|]. split; [|exact HS].
      intro Ec. destruct (H0 Ec) as (-> & Hcl). split; [reflexivity|]. intros f' Hf'. apply in_app_iff in Hf' as [Hf'|[<-|[]]]; [auto|].
      intros es' l' e' A B _ _. congruence. }
    destruct (omap_marks m1 es) as (ms & Ems & Hms).
    { intros e He. rewrite L1. exact (fa_edges _ _ _ (Hf r Hr) es e (nth_error_In _ _ Ees) He). }
    rewrite Ems. cbn [obind]. destruct (existsb (fun b => b) ms) eqn:Ex.
    + destruct (mark_edge_ok P nbx maps Hnbx Hok r ranks links m1 u1 l Hr Er L1 L2 Hl) as (m2 & u2 & Em & Eu & L3 & Hp2).
      rewrite Em. cbn [obind]. eexists. split; [reflexivity|]. split; [rewrite (upd_length _ _ _ _ Eu); exact L1|]. split; [exact L3|].
      split. { intros e He. apply (upd_mono _ _ _ e Eu). right. auto. }
      assert (Elf : nth_error m l = Some false).
      { destruct (nth_error_lt m l) as ([|] & Hb); [lia| |exact Hb]. apply Hmono in Hb. congruence. }
      split. { intros q e. rewrite Hp2, Hpend, (upd_mono _ _ _ e Eu). split.
               - intros [(A & A' & A'')|(-> & A & A')]; [tauto|]. auto.
               - intros ([->|A] & B & C & D); [right; auto|left; auto]. }
      split; [pose proof (countb_upd _ _ _ Eu Eb); lia|]. split; [rewrite app_length; cbn; lia|]. split; [lia|].
      intros S S1 S2 e He. apply (upd_mono _ _ _ e Eu) in He as [->|He]; [|exact (HS S S1 S2 e He)].
      destruct (proj1 Hms eq_refl) as (x & Hx & Hmx). exact (S2 f es l x Ees El Hx (HS S S1 S2 x Hmx)).
    + eexists. split; [reflexivity|]. split; [exact L1|]. split; [exact L2|]. split; [exact Hmono|]. split; [exact Hpend|].
      split; [exact Hc|]. split; [rewrite app_length; lia|]. split; [|exact HS].
      intro Ec. destruct (H0 Ec) as (-> & Hcl). split; [reflexivity|]. intros f' Hf'. apply in_app_iff in Hf' as [Hf'|[<-|[]]]; [auto|].
      intros es' l' e' A B C D. rewrite Ees in A. injection A as <-. exfalso.
      assert (false = true) by (apply Hms; eauto). discriminate.
  - rewrite E. destruct HI as (I1 & I2 & I3 & I4 & I5 & I6 & I7 & I8). exists m', u, c.
    rewrite seq_length in I6. rewrite En in I4. split; [reflexivity|]. split; [exact I1|]. split; [exact I2|]. split; [exact I3|]. split; [exact I4|]. split; [exact I5|].
    split; [exact I6|]. split; [|exact I8]. intro Ec. destruct (I7 Ec) as (A & B). split; [exact A|]. intros f Hff. apply B, in_seq. lia.
Qed.

(** ** Initial marks *)
Lemma initial_ok edges r : r < P -> (forall e, chosen maps edges r e -> e < nedges r) ->
  exists s, initial_marks P nbx maps edges r = Some s /\ st_ok r s /\
    (forall e, nth_error (fst s) e = Some true <-> chosen maps edges r e) /\
    (forall es, edges = Some es -> forall q e, In e (es r) -> In q (nbrs r) -> shares r e q -> pend r (snd s) q e).
Proof.
  intros Hr Hc. unfold initial_marks. destruct (edge_ranks P nbx maps r) as [(ranks, links)|] eqn:Er.
  2:{ destruct (edge_ranks_ok P nbx maps Hnbx Hok r Hr) as (? & ? & E & _). congruence. }
  assert (En : nbrs r = ranks) by (unfold edge_nbrs; now rewrite Er). cbn [obind]. rewrite En.
  change (size_local (maps r) + num_ghosts (maps r)) with (nedges r). destruct edges as [es|].
  - cbn [chosen] in *.
    pose (Inv := fun (p : list nat) (s : state) => length (fst s) = nedges r /\ length (snd s) = length ranks /\
      (forall e, nth_error (fst s) e = Some true <-> In e p) /\
      (forall q e, pend r (snd s) q e <-> In e p /\ In q (nbrs r) /\ shares r e q)).
    destruct (ofold_prefix_ind (fun (s : state) e => m <- nth_error (fst s) e ;; if m then Some s else mark_edge links s e) Inv (es r) (repeat false (nedges r), repeat [] (length ranks)))
      as (s & E & L1 & L2 & Hm & Hp).
    + split; [apply repeat_length|]. split; [apply repeat_length|]. cbn [fst snd]. split.
      * intro e. split; [|intros []]. intro H. apply nth_error_In, repeat_spec in H. discriminate.
      * intros q e. split; [intro H; destruct (pend_nil _ _ _ _ _ _ _ H)|intros ([] & _)].
    + intros p e t (m1, u1) Ep (L1 & L2 & Hm & Hp). cbn [fst snd] in *.
      assert (He : e < nedges r) by (apply Hc; rewrite Ep; apply in_elt).
      destruct (nth_error_lt m1 e) as (b & Eb); [lia|]. rewrite Eb. cbn [obind]. destruct b.
      * exists (m1, u1). split; [reflexivity|]. split; [exact L1|]. split; [exact L2|]. cbn [fst snd]. pose proof (proj1 (Hm e) Eb) as Hin. split.
        -- intro x. rewrite Hm, in_app_iff. cbn. split; [auto|intros [H|[<-|[]]]; auto].
        -- intros q x. rewrite Hp, in_app_iff. cbn. split; [tauto|intros ([H|[<-|[]]] & A); auto].
      * destruct (mark_edge_ok P nbx maps Hnbx Hok r ranks links m1 u1 e Hr Er L1 L2 He) as (m2 & u2 & Em & Eu & L3 & Hp2).
        exists (m2, u2). split; [exact Em|]. split; [rewrite <- L1; exact (upd_length _ _ _ _ Eu)|]. split; [exact L3|]. cbn [fst snd]. split.
        -- intro x. rewrite (upd_mono _ _ _ x Eu), Hm, in_app_iff. cbn. intuition congruence.
        -- intros q x. rewrite Hp2, Hp, in_app_iff. cbn. split.
           ++ intros [(A & B)|(-> & B)]; auto.
           ++ intros ([A|[<-|[]]] & B & C); [left; auto|right; auto].
    + exists s. split; [exact E|]. split; [|split].
      * split; [exact L1|]. split; [now rewrite En|]. intros q e H. apply Hp in H as (A & _ & B). split; [now apply Hm|exact B].
      * exact Hm.
      * intros es' [= <-] q e A B C. apply Hp. rewrite En. auto.
  - exists (repeat true (nedges r), repeat [] (length ranks)). split; [reflexivity|]. split; [|split; [|discriminate]].
    + split; [apply repeat_length|]. split; [rewrite En; apply repeat_length|]. intros q e H. destruct (pend_nil _ _ _ _ _ _ _ H).
    + intro e. cbn [fst chosen]. split.
      * intro H. apply nth_error_bound in H. now rewrite repeat_length in H.
      * intro H. now apply nth_error_repeat.
Qed.
End Proofs.
