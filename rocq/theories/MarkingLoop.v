(** The loop of enforce_rules. *)
From Verif Require Import Base BaseProofs Algo AlgoProofs World WorldProofs IndexMap IndexMapSpec IndexMapProofs
  LocateSpec LocateProofs MatrixPar Marking MarkingSpec MarkingRanks MarkingProofs.
Open Scope nat_scope.

(** A list over all ranks *)
Lemma omap_ranks {A} P (f : nat -> option A) (Q : nat -> A -> Prop) :
  (forall r, r < P -> exists x, f r = Some x /\ Q r x) ->
  exists l, omap f (seq 0 P) = Some l /\ length l = P /\ forall r x, nth_error l r = Some x -> r < P /\ Q r x.
Proof.
  intro H. destruct (omap_some f (seq 0 P)) as (l & E).
  { intros r Hr. apply in_seq in Hr. destruct (H r) as (x & Ex & _); [lia|eauto]. }
  pose proof (omap_length _ _ _ E) as L. rewrite seq_length in L. exists l. split; [exact E|]. split; [exact L|].
  intros r x Hx. pose proof (nth_error_bound _ _ _ Hx) as Hr. rewrite L in Hr. split; [exact Hr|].
  destruct (omap_nth _ _ _ E r r) as (x' & Hx' & Ex); [now apply nth_error_seq|]. rewrite Hx in Hx'. injection Hx' as <-.
  destruct (H r Hr) as (y & Ey & HQ). congruence.
Qed.
Lemma lsum_pointwise {A B} (f : A -> nat) (g : B -> nat) (l : list A) (l' : list B) : length l = length l' ->
  (forall i x y, nth_error l i = Some x -> nth_error l' i = Some y -> f x <= g y) -> lsum (map f l) <= lsum (map g l').
Proof.
  revert l'. induction l as [|x l IH]; intros [|y l'] HL H; cbn in HL; try discriminate; [reflexivity|].
  cbn [map]. unfold lsum in *. cbn [fold_right]. pose proof (H 0 x y eq_refl eq_refl).
  specialize (IH l' ltac:(lia) (fun i => H (S i))). lia.
Qed.
Lemma lsum_eq_pointwise {A B} (f h : A -> nat) (g : B -> nat) (l : list A) (l' : list B) : length l = length l' ->
  (forall i x y, nth_error l i = Some x -> nth_error l' i = Some y -> f x + h x = g y) -> lsum (map f l) + lsum (map h l) = lsum (map g l').
Proof.
  revert l'. induction l as [|x l IH]; intros [|y l'] HL H; cbn in HL; try discriminate; [reflexivity|].
  cbn [map]. unfold lsum in *. cbn [fold_right]. pose proof (H 0 x y eq_refl eq_refl).
  specialize (IH l' ltac:(lia) (fun i => H (S i))). lia.
Qed.
Lemma lsum_zero {A} (f : A -> nat) l : lsum (map f l) = 0 -> forall x, In x l -> f x = 0.
Proof.
  induction l as [|y l IH]; intros H x Hx; [destruct Hx|]. unfold lsum in *. cbn [map fold_right] in H.
  destruct Hx as [<-|Hx]; [lia|]. apply IH; [lia|exact Hx].
Qed.

Section Loop.
Variables (P : nat) (nbx : (nat -> list nat) -> nat -> list nat) (maps : nat -> imap).
Variables (f2e : nat -> list (list nat)) (long : nat -> list nat) (edges : option (nat -> list nat)).
Hypothesis Hnbx : nbx_oracle P nbx.
Hypothesis Hok : maps_ok P maps.
Hypothesis Hf : forall r, r < P -> faces_ok (maps r) (f2e r) (long r).
Hypothesis Hch : forall r e, r < P -> chosen maps edges r e -> e < edge_count (maps r).
Hypothesis Hsize : (Z.of_nat (lsum (map (fun r => length (f2e r)) (seq 0 P))) < 2147483648)%Z.

Notation nedges r := (edge_count (maps r)).
Notation nbrs := (edge_nbrs P nbx maps).
Notation pend := (pend P nbx maps).
Notation shares := (shares maps).
Notation state := (list bool * list (list nat))%type.
Notation st_ok := (st_ok P nbx maps).
Notation pd := (pd P nbx maps).

(** In every closed and agreed set that contains the chosen edges *)
Definition needed (r e : nat) : Prop :=
  forall M : nat -> nat -> Prop, (forall r e, r < P -> chosen maps edges r e -> M r e) -> closed P f2e long M -> agreed P maps M -> M r e.

(** All sharing ranks have the edge marked, or one rank has it marked and will tell all others. *)
Definition told (W : list state) (g : nat) : Prop :=
  (forall q e, q < P -> at_global (maps q) e g -> mk W q e) \/
  exists s x, s < P /\ mk W s x /\ at_global (maps s) x g /\ forall q e, q < P -> q <> s -> at_global (maps q) e g -> pd W s q x.

Record good (W : list state) : Prop := {
  gd_len : length W = P;
  gd_ok : forall r s, nth_error W r = Some s -> st_ok r s;
  gd_needed : forall r e, r < P -> mk W r e -> needed r e;
  gd_chosen : forall r e, r < P -> chosen maps edges r e -> mk W r e;
  gd_told : forall r e g, r < P -> mk W r e -> at_global (maps r) e g -> told W g
}.

(** What holds for the marks after communication *)
Record synced (U : list (list bool)) : Prop := {
  sy_len : length U = P;
  sy_size : forall r m, nth_error U r = Some m -> length m = nedges r;
  sy_needed : forall r e, r < P -> marked U r e -> needed r e;
  sy_chosen : forall r e, r < P -> chosen maps edges r e -> marked U r e;
  sy_agreed : agreed P maps (marked U)
}.

Definition unmarked (U : list (list bool)) : nat := lsum (map (countb negb) U).

Lemma mk_bound W r e : good W -> r < P -> mk W r e -> e < nedges r.
Proof.
  intros G Hr (s & Es & He). apply nth_error_bound in He. destruct (gd_ok _ G r s Es) as (L & _). lia.
Qed.

Lemma sync W : good W -> exists U, omap (update_edges P nbx maps (nth_error W)) (seq 0 P) = Some U /\
  synced U /\ unmarked U <= unmarked (map fst W).
Proof.
  intro G. assert (HW : forall q, q < P -> exists s, nth_error W q = Some s /\ st_ok q s).
  { intros q Hq. destruct (nth_error_lt W q) as (s & Es); [rewrite (gd_len _ G); exact Hq|]. exists s. split; [exact Es|exact (gd_ok _ G q s Es)]. }
  destruct (omap_ranks P (update_edges P nbx maps (nth_error W)) (fun r m => exists s, nth_error W r = Some s /\
      length m = nedges r /\ countb negb m <= countb negb (fst s) /\
      forall e, nth_error m e = Some true <-> mk W r e \/ exists q x g, q < P /\ pd W q r x /\ at_global (maps q) x g /\ at_global (maps r) e g))
    as (U & EU & LU & HU).
  { intros r Hr. destruct (update_ok P nbx maps Hnbx Hok W r Hr HW) as (m & s & A & B). exists m. split; [exact A|]. exists s. exact B. }
  exists U. split; [exact EU|].
  assert (HM : forall r e, r < P -> marked U r e <-> mk W r e \/ exists q x g, q < P /\ pd W q r x /\ at_global (maps q) x g /\ at_global (maps r) e g).
  { intros r e Hr. destruct (nth_error_lt U r) as (m & Em); [lia|]. destruct (HU r m Em) as (_ & s & _ & _ & _ & N). rewrite <- N.
    split; [intros (m' & Em' & H); congruence|intro H; exists m; auto]. }
  assert (Hpm : forall q r x, q < P -> pd W q r x -> mk W q x).
  { intros q r x Hq (s & Es & Hp). exists s. split; [exact Es|]. now apply (gd_ok _ G q s Es) in Hp. }
  split; [split|].
  - exact LU.
  - intros r m Em. destruct (HU r m Em) as (_ & s & _ & L & _). exact L.
  - intros r e Hr H. apply HM in H as [H|(q & x & g & Hq & Hp & A & B)]; [now apply (gd_needed _ G)| |exact Hr].
    intros M M1 M2 M3. apply (M3 q r x e g Hq Hr A B). exact (gd_needed _ G q x Hq (Hpm q r x Hq Hp) M M1 M2 M3).
  - intros r e Hr H. apply HM; [exact Hr|]. left. now apply (gd_chosen _ G).
  - intros r q e e' g Hr Hq A A' H. apply HM; [exact Hq|].
    assert (X : exists r0 e0, r0 < P /\ mk W r0 e0 /\ at_global (maps r0) e0 g).
    { apply HM in H as [H|(s & x & g' & Hs & Hp & B & B')]; [eauto| |exact Hr].
      exists s, x. split; [exact Hs|]. split; [eauto|]. now rewrite (at_fun _ _ _ _ A B'). }
    destruct X as (r0 & e0 & Hr0 & Hmk & A0). destruct (gd_told _ G r0 e0 g Hr0 Hmk A0) as [H1|(s & x & Hs & Hmx & As & Hall)]; [left; auto|].
    destruct (Nat.eq_dec q s) as [->|Hne].
    + left. now rewrite (at_inj P maps Hok s _ _ _ Hs A' As).
    + right. exists s, x, g. split; [exact Hs|]. split; [exact (Hall q e' Hq Hne A')|auto].
  - unfold unmarked. rewrite map_map. apply lsum_pointwise; [rewrite LU; symmetry; exact (gd_len _ G)|].
    intros r m s Em Es. destruct (HU r m Em) as (_ & s' & Es' & _ & Hc & _). rewrite Es in Es'. injection Es' as <-. exact Hc.
Qed.

Lemma sweeps U : synced U -> exists N, omap (fun r => m <- nth_error U r ;; sweep P nbx maps f2e long r m) (seq 0 P) = Some N /\
  good (map fst N) /\ unmarked (map fst (map fst N)) + lsum (map snd N) = unmarked U /\
  lsum (map snd N) <= lsum (map (fun r => length (f2e r)) (seq 0 P)) /\
  (lsum (map snd N) = 0 -> map (fun x => fst (fst x)) N = U /\ closed P f2e long (marked U)).
Proof.
  intro Y.
  destruct (omap_ranks P (fun r => m <- nth_error U r ;; sweep P nbx maps f2e long r m) (fun r x => exists m m' u c, nth_error U r = Some m /\ x = ((m', u), c) /\
    length m' = nedges r /\ length u = length (nbrs r) /\
    (forall e, nth_error m e = Some true -> nth_error m' e = Some true) /\
    (forall q e, pend r u q e <-> nth_error m' e = Some true /\ nth_error m e = Some false /\ In q (nbrs r) /\ shares r e q) /\
    countb negb m' + c = countb negb m /\ c <= length (f2e r) /\
    (c = 0 -> m' = m /\ forall f, f < length (f2e r) -> closed_at f2e long r m f) /\
    (forall S : nat -> Prop, (forall e, nth_error m e = Some true -> S e) ->
       (forall f es l e, nth_error (f2e r) f = Some es -> nth_error (long r) f = Some l -> In e es -> S e -> S l) ->
       forall e, nth_error m' e = Some true -> S e))) as (N & EN & LN & HN).
  { intros r Hr. destruct (nth_error_lt U r) as (m & Em); [rewrite (sy_len _ Y); exact Hr|]. rewrite Em. cbn [obind].
    destruct (sweep_ok P nbx maps f2e long Hnbx Hok Hf r m Hr (sy_size _ Y r m Em)) as (m' & u & c & E & R). rewrite E.
    eexists. split; [reflexivity|]. exists m, m', u, c. split; [reflexivity|]. split; [reflexivity|exact R]. }
  exists N. split; [exact EN|].
  assert (Hget : forall r, r < P -> exists x, nth_error N r = Some x) by (intros r Hr; apply nth_error_lt; lia).
  assert (Hst : forall r s, nth_error (map fst N) r = Some s -> exists c, nth_error N r = Some (s, c)).
  { intros r s H. rewrite nth_error_map in H. destruct (nth_error N r) as [(s', c)|]; [|discriminate]. injection H as <-. eauto. }
  assert (Hkeep : forall r e, r < P -> marked U r e -> mk (map fst N) r e).
  { intros r e Hr (m & Em & H). destruct (Hget r Hr) as (x & Ex). destruct (HN r x Ex) as (_ & m0 & m' & u & c & Em0 & -> & _ & _ & Hm & _).
    exists (m', u). split; [rewrite nth_error_map, Ex; reflexivity|]. apply Hm. congruence. }
  split; [split|split; [|split]].
  - now rewrite map_length.
  - intros r s H. destruct (Hst r s H) as (c & Ex). destruct (HN r _ Ex) as (Hr & m & m' & u & c' & Em & [= -> ->] & L1 & L2 & Hm & Hp & _).
    split; [exact L1|]. split; [exact L2|]. cbn [fst snd]. intros q e Hq. apply Hp in Hq. tauto.
  - intros r e Hr (s & Es & He). destruct (Hst r s Es) as (c & Ex). destruct (HN r _ Ex) as (_ & m & m' & u & c' & Em & [= -> ->] & _ & _ & _ & _ & _ & _ & _ & HS).
    cbn [fst] in He. intros M M1 M2 M3. apply (HS (M r)); [| |exact He].
    + intros x Hx. apply (sy_needed _ Y r x Hr); auto. exists m. auto.
    + intros f es l x A B C D. exact (M2 r f es l x Hr A B C D).
  - intros r e Hr H. apply Hkeep; [exact Hr|]. now apply (sy_chosen _ Y).
  - intros r e g Hr (s & Es & He) A. destruct (Hst r s Es) as (c & Ex). destruct (HN r _ Ex) as (_ & m & m' & u & c' & Em & [= -> ->] & L1 & L2 & Hm & Hp & _).
    cbn [fst] in He. destruct (nth_error_lt m e) as (b & Eb); [rewrite (sy_size _ Y r m Em); eapply at_lt; eauto|]. destruct b.
    + left. intros q e' Hq A'. apply Hkeep; [exact Hq|]. apply (sy_agreed _ Y r q e e' g Hr Hq A A'). exists m. auto.
    + right. exists r, e. split; [exact Hr|]. split; [exists (m', u); auto|]. split; [exact A|].
      intros q e' Hq Hne A'. exists (m', u). split; [exact Es|]. cbn [snd]. apply Hp. split; [exact He|]. split; [exact Eb|].
      assert (Hs : shares r e q) by (exists g, e'; auto). split; [|exact Hs]. apply nbrs_in; try assumption. split; [exact Hq|]. split; [exact Hne|eauto].
  - unfold unmarked. rewrite !map_map. apply lsum_eq_pointwise; [rewrite LN; symmetry; exact (sy_len _ Y)|].
    intros r x m Ex Em. destruct (HN r x Ex) as (_ & m0 & m' & u & c & Em0 & -> & _ & _ & _ & _ & Hc & _). cbn [fst snd].
    rewrite Em in Em0. injection Em0 as <-. exact Hc.
  - apply lsum_pointwise; [rewrite LN, seq_length; reflexivity|]. intros i x y Ex Ey.
    destruct (HN i x Ex) as (Hi & m0 & m' & u & c & Em0 & -> & _ & _ & _ & _ & _ & Hc & _). cbn [snd].
    rewrite nth_error_seq in Ey by exact Hi. injection Ey as <-. exact Hc.
  - intro H0. assert (Hz : forall r x, nth_error N r = Some x -> snd x = 0) by (intros r x Ex; exact (lsum_zero snd N H0 x (nth_error_In _ _ Ex))).
    split.
    + apply nth_error_ext. intro r. rewrite nth_error_map. destruct (nth_error N r) as [x|] eqn:Ex; cbn [option_map].
      * destruct (HN r x Ex) as (Hr & m & m' & u & c & Em & -> & _ & _ & _ & _ & _ & _ & Hc & _). specialize (Hz r _ Ex). cbn [fst snd] in *.
        destruct (Hc Hz) as (-> & _). now symmetry.
      * symmetry. apply nth_error_None. rewrite (sy_len _ Y), <- LN. now apply nth_error_None.
    + intros r f es l e Hr Ees El He (m & Em & Hm). destruct (Hget r Hr) as (x & Ex).
      destruct (HN r x Ex) as (_ & m0 & m' & u & c & Em0 & -> & _ & _ & _ & _ & _ & _ & Hc & _). specialize (Hz r _ Ex). cbn [snd] in Hz.
      rewrite Em in Em0. injection Em0 as <-. destruct (Hc Hz) as (_ & Hcl). exists m. split; [exact Em|].
      exact (Hcl f (nth_error_bound _ _ _ Ees) es l e Ees El He Hm).
Qed.

Lemma wrap32_id z : (0 <= z < 2147483648)%Z -> wrap32 z = z.
Proof. intro H. unfold wrap32. rewrite Z.mod_small by lia. lia. Qed.

Lemma loop_ok fuel : forall W, good W -> unmarked (map fst W) < fuel ->
  exists U, enforce_rules P nbx maps f2e long fuel W = Some U /\ synced U /\ closed P f2e long (marked U).
Proof.
  induction fuel as [|fuel IH]; intros W G Hfu; [lia|]. cbn [enforce_rules].
  destruct (sync W G) as (U & EU & Y & C1). rewrite EU. cbn [obind].
  destruct (sweeps U Y) as (N & EN & G' & C2 & C3 & H0). rewrite EN. cbn [obind].
  rewrite wrap32_id by lia. destruct (Z.ltb_spec 0 (Z.of_nat (lsum (map snd N)))) as [H|H].
  - apply IH; [exact G'|]. lia.
  - destruct H0 as (E & Hc); [lia|]. rewrite E. exists U. auto.
Qed.

Lemma countb_le {A} (p : A -> bool) l : countb p l <= length l.
Proof. induction l as [|x l IH]; cbn; [lia|]. destruct (p x); lia. Qed.

Lemma marked_edges_ok fuel : lsum (map (fun r => edge_count (maps r)) (seq 0 P)) < fuel ->
  exists U, marked_edges P nbx maps f2e long edges fuel = Some U /\ synced U /\ closed P f2e long (marked U).
Proof.
  intro Hfu. unfold marked_edges.
  destruct (omap_ranks P (initial_marks P nbx maps edges) (fun r s => st_ok r s /\
    (forall e, nth_error (fst s) e = Some true <-> chosen maps edges r e) /\
    (forall es, edges = Some es -> forall q e, In e (es r) -> In q (nbrs r) -> shares r e q -> pend r (snd s) q e))) as (W & EW & LW & HW).
  { intros r Hr. exact (initial_ok P nbx maps Hnbx Hok edges r Hr (fun e => Hch r e Hr)). }
  rewrite EW. cbn [obind].
  assert (HM : forall r e, r < P -> mk W r e <-> chosen maps edges r e).
  { intros r e Hr. destruct (nth_error_lt W r) as (s & Es); [lia|]. destruct (HW r s Es) as (_ & _ & H & _). rewrite <- H.
    split; [intros (s' & Es' & X); congruence|intro X; exists s; auto]. }
  assert (G : good W).
  { split.
    - exact LW.
    - intros r s Es. apply (HW r s Es).
    - intros r e Hr H M M1 M2 M3. apply M1; [exact Hr|]. now apply HM.
    - intros r e Hr H. now apply HM.
    - intros r e g Hr H A. apply HM in H; [|exact Hr]. unfold told. destruct edges as [es|] eqn:Ee.
      + right. exists r, e. split; [exact Hr|]. split; [now apply HM|]. split; [exact A|]. intros q e' Hq Hne A'.
        destruct (nth_error_lt W r) as (s & Es); [lia|]. exists s. split; [exact Es|].
        assert (Hs : shares r e q) by (exists g, e'; auto).
        apply (proj2 (proj2 (proj2 (HW r s Es))) es eq_refl q e H); [|exact Hs]. apply nbrs_in; try assumption.
        split; [exact Hq|]. split; [exact Hne|eauto].
      + left. intros q e' Hq A'. apply HM; [exact Hq|]. cbn [chosen]. eapply at_lt; eauto. }
  destruct (sync W G) as (U & EU & Y & _). rewrite EU. cbn [obind].
  destruct (omap_ranks P (fun r => m <- nth_error U r ;; '(ranks, _) <- edge_ranks P nbx maps r ;; Some (m, repeat (@nil nat) (length ranks)))
    (fun r s => exists m, nth_error U r = Some m /\ s = (m, repeat [] (length (nbrs r))))) as (W' & EW' & LW' & HW').
  { intros r Hr. destruct (nth_error_lt U r) as (m & Em); [rewrite (sy_len _ Y); exact Hr|]. rewrite Em. cbn [obind]. unfold edge_nbrs.
    destruct (edge_ranks_ok P nbx maps Hnbx Hok r Hr) as (ranks & rows & -> & _). cbn [obind]. eauto. }
  rewrite EW'. cbn [obind].
  assert (HM' : forall r e, r < P -> mk W' r e <-> marked U r e).
  { intros r e Hr. destruct (nth_error_lt W' r) as (s & Es); [lia|]. destruct (HW' r s Es) as (_ & m & Em & Ems). split.
    - intros (s' & Es' & X). exists m. split; [exact Em|]. rewrite Es in Es'. injection Es' as <-. now rewrite Ems in X.
    - intros (m' & Em' & X). exists s. split; [exact Es|]. rewrite Ems. cbn [fst]. congruence. }
  apply loop_ok.
  - split.
    + exact LW'.
    + intros r s Es. destruct (HW' r s Es) as (Hr & m & Em & ->). split; [exact (sy_size _ Y r m Em)|]. split; [apply repeat_length|].
      intros q e H. destruct (pend_nil _ _ _ _ _ _ _ H).
    + intros r e Hr H. apply (sy_needed _ Y r e Hr). now apply HM'.
    + intros r e Hr H. apply HM'; [exact Hr|]. now apply (sy_chosen _ Y).
    + intros r e g Hr H A. left. intros q e' Hq A'. apply HM'; [exact Hq|]. apply (sy_agreed _ Y r q e e' g Hr Hq A A'). now apply HM'.
  - eapply Nat.le_lt_trans; [|exact Hfu]. unfold unmarked. rewrite map_map. apply lsum_pointwise; [rewrite LW', seq_length; reflexivity|].
    intros i s y Es Ey. destruct (HW' i s Es) as (Hi & m & Em & ->). rewrite nth_error_seq in Ey by exact Hi. injection Ey as <-. cbn [fst].
    rewrite <- (sy_size _ Y i m Em). apply countb_le.
Qed.
End Loop.

(** ** Statement *)
Theorem marking_statement : forall P nbx maps f2e long edges, nbx_oracle P nbx -> maps_ok P maps ->
  (forall r, r < P -> faces_ok (maps r) (f2e r) (long r)) ->
  (forall r e, r < P -> chosen maps edges r e -> e < edge_count (maps r)) ->
  (Z.of_nat (lsum (map (fun r => length (f2e r)) (seq 0 P))) < 2147483648)%Z ->
  forall fuel, lsum (map (fun r => edge_count (maps r)) (seq 0 P)) < fuel ->
  exists W, marked_edges P nbx maps f2e long edges fuel = Some W /\
    length W = P /\ (forall r m, nth_error W r = Some m -> length m = edge_count (maps r)) /\
    (forall r e, r < P -> chosen maps edges r e -> marked W r e) /\
    closed P f2e long (marked W) /\ agreed P maps (marked W) /\
    forall M : nat -> nat -> Prop, (forall r e, r < P -> chosen maps edges r e -> M r e) -> closed P f2e long M -> agreed P maps M ->
      forall r e, r < P -> marked W r e -> M r e.
Proof.
  intros P nbx maps f2e long edges H1 H2 H3 H4 H5 fuel H6.
  destruct (marked_edges_ok P nbx maps f2e long edges H1 H2 H3 H4 H5 fuel H6) as (W & E & Y & C). exists W.
  split; [exact E|]. split; [exact (sy_len _ _ _ _ _ _ Y)|]. split; [exact (sy_size _ _ _ _ _ _ Y)|].
  split; [exact (sy_chosen _ _ _ _ _ _ Y)|]. split; [exact C|]. split; [exact (sy_agreed _ _ _ _ _ _ Y)|].
  intros M M1 M2 M3 r e Hr Hm. exact (sy_needed _ _ _ _ _ _ Y r e Hr Hm M M1 M2 M3).
Qed.
