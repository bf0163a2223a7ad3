(** Proofs for property C89. *)
From Verif Require Import Base BaseProofs Spaces SpacesSpec.
Open Scope nat_scope.

Lemma history_ok : forall l spaces, history l = Some spaces ->
  length spaces = length l /\ forall i, i < length l -> exists V, nth_error spaces i = Some V /\ address V = i /\ part_of l i (root_id V) (components V).
Proof.
  intro l. unfold history. induction l as [|o l IH] using rev_ind; intros spaces E.
  - injection E as <-. split; [reflexivity|]. cbn. lia.
  - rewrite ofold_app in E. destruct (ofold make l []) as [s|] eqn:Es; cbn [obind] in E; [|discriminate]. destruct (IH s eq_refl) as [L H].
    assert (mono : forall i r p, part_of l i r p -> part_of (l ++ [o]) i r p).
    { intros i r p Hp. induction Hp as [r Hr|i k c r p Hi Hk Hp IHp]; [apply part_new|eapply part_sub; [|exact Hk|exact IHp]]; (rewrite nth_error_app1; [assumption|eapply nth_error_bound; eassumption]). }
    assert (Last : nth_error (l ++ [o]) (length l) = Some o) by (rewrite nth_error_app2, Nat.sub_diag by lia; reflexivity).
    assert (G : forall W, address W = length s -> part_of (l ++ [o]) (length l) (root_id W) (components W) -> spaces = s ++ [W] ->
      length spaces = length (l ++ [o]) /\ forall i, i < length (l ++ [o]) -> exists V, nth_error spaces i = Some V /\ address V = i /\ part_of (l ++ [o]) i (root_id V) (components V)).
    { intros W Ha Hp ->. rewrite !app_length. cbn [length]. split; [lia|]. intros i Hi. destruct (Nat.eq_dec i (length l)) as [->|N].
      - exists W. rewrite nth_error_app2, L, Nat.sub_diag by lia. split; [reflexivity|]. split; [lia|exact Hp].
      - destruct (H i ltac:(lia)) as (V & E1 & E2 & E3). exists V. rewrite nth_error_app1 by lia. split; [exact E1|]. split; [exact E2|]. apply mono, E3. }
    cbn [ofold] in E. destruct o as [|k c]; cbn [make] in E.
    + cbn [obind] in E. injection E as E. apply (G (new_space (length s))); [reflexivity| |now symmetry]. cbn. rewrite L. apply part_new, Last.
    + destruct (nth_error s k) as [V|] eqn:Ek; cbn [obind] in E; [|discriminate]. unfold sub in E. destruct c as [|c0 c]; cbn [obind] in E; [discriminate|]. injection E as E.
      pose proof (nth_error_bound _ _ _ Ek) as Hk. rewrite L in Hk. destruct (H k Hk) as (V' & E1 & _ & E3). assert (V' = V) as -> by congruence.
      apply (G (mk_space (length s) (root_id V) (components V ++ c0 :: c))); [reflexivity| |now symmetry]. cbn [root_id components]. eapply part_sub; [exact Last|exact Hk|]. apply mono, E3.
Qed.
Lemma part_unique l i r p : part_of l i r p -> forall r' p', part_of l i r' p' -> r = r' /\ p = p'.
Proof.
  induction 1 as [r Hr|i k c r p Hi Hk Hp IH]; intros r' p' H'; inversion H'; subst; try congruence; [now split|].
  match goal with H : nth_error l i = Some (Sub ?k0 ?c0), H0 : part_of l ?k0 r' ?p0 |- _ => rewrite H in Hi; injection Hi as <- <-; destruct (IH _ _ H0) as [-> ->] end. now split.
Qed.
Lemma prefix_iff : forall a b, (length b <? length a) = false /\ forallb (fun ab => fst ab =? snd ab) (combine a b) = true <-> exists q : list nat, b = a ++ q.
Proof.
  induction a as [|x a IH]; intro b.
  - split; [intros _; now exists b|]. intros _. split; [apply Nat.ltb_ge; cbn; lia|reflexivity].
  - destruct b as [|y b].
    + split; [intros [H _]; cbn in H; discriminate|intros (q & Hq); discriminate].
    + cbn [combine forallb fst snd length]. specialize (IH b). split.
      * intros [H1 H2]. apply andb_true_iff in H2 as [H2 H3]. apply Nat.eqb_eq in H2. apply Nat.ltb_ge in H1. destruct (proj1 IH) as (q & ->); [split; [apply Nat.ltb_ge; lia|exact H3]|]. exists q. now rewrite H2.
      * intros (q & Hq). injection Hq as -> Hq. destruct (proj2 IH) as [H1 H2]; [now exists q|]. apply Nat.ltb_ge in H1. split; [apply Nat.ltb_ge; lia|]. rewrite Nat.eqb_refl. exact H2.
Qed.
Lemma contains_ok l spaces i j V W r p r' p' : history l = Some spaces -> nth_error spaces i = Some V -> nth_error spaces j = Some W -> part_of l i r p -> part_of l j r' p' ->
  (contains V W = true <-> r = r' /\ exists q, p' = p ++ q).
Proof.
  intros E Ei Ej Pi Pj. destruct (history_ok _ _ E) as [L H].
  pose proof (nth_error_bound _ _ _ Ei) as Hi. pose proof (nth_error_bound _ _ _ Ej) as Hj. rewrite L in Hi, Hj.
  destruct (H i Hi) as (V' & E1 & A1 & P1). destruct (H j Hj) as (W' & E2 & A2 & P2). assert (V' = V) as -> by congruence. assert (W' = W) as -> by congruence.
  destruct (part_unique _ _ _ _ Pi _ _ P1) as [-> ->]. destruct (part_unique _ _ _ _ Pj _ _ P2) as [-> ->]. unfold contains. rewrite A1, A2.
  destruct (Nat.eqb_spec i j) as [->|N].
  - assert (V = W) as -> by congruence. split; [intros _; split; [reflexivity|]; exists []; now rewrite app_nil_r|trivial].
  - pose proof (prefix_iff (components V) (components W)) as Q. destruct (Nat.eqb_spec (root_id V) (root_id W)) as [R|R]; cbn [negb].
    + destruct (length (components W) <? length (components V)); [split; [discriminate|intros [_ Hq]; now destruct (proj2 Q Hq)]|].
      destruct (forallb (fun ab => fst ab =? snd ab) (combine (components V) (components W))); cbn [negb]; [split; [intros _; split; [exact R|]; now apply Q|trivial]|].
      split; [discriminate|intros [_ Hq]; now destruct (proj2 Q Hq)].
    + split; [discriminate|intros [Hr _]; contradiction].
Qed.

(** The spaces of blocks: all blocks with both spaces, in order *)
Section Common.
Variable V : list (list (option nat * option nat)).
Definition positions : list (nat * nat * (option nat * option nat)) :=
  flat_map (fun irow => map (fun jp => (fst irow, fst jp, snd jp)) (combine (seq 0 (length (snd irow))) (snd irow))) (combine (seq 0 (length V)) V).
Definition step (s : list (option nat) * list (option nat)) (x : nat * nat * (option nat * option nat)) : option (list (option nat) * list (option nat)) :=
  match snd x with
  | (Some v0, Some v1) => s0 <- set_or_check (fst s) (fst (fst x)) v0 ;; s1 <- set_or_check (snd s) (snd (fst x)) v1 ;; Some (s0, s1)
  | _ => Some s
  end.
Lemma combine_seq_in {A} (l : list A) i a : In (i, a) (combine (seq 0 (length l)) l) <-> nth_error l i = Some a.
Proof.
  assert (G : forall l k, In (i, a) (combine (seq k (length l)) l) <-> k <= i /\ nth_error l (i - k) = Some a).
  { clear l. induction l as [|x l IH]; intro k; cbn [length seq combine In]; [split; [intros []|intros [_ H]; destruct (i - k); discriminate]|]. rewrite IH. split.
    - intros [H|[H1 H2]]; [injection H as -> ->; rewrite Nat.sub_diag; split; [lia|reflexivity]|]. split; [lia|]. replace (i - k) with (S (i - S k)) by lia. exact H2.
    - intros [H1 H2]. destruct (Nat.eq_dec i k) as [->|N]; [left; rewrite Nat.sub_diag in H2; now injection H2 as ->|right]. split; [lia|]. replace (i - k) with (S (i - S k)) in H2 by lia. exact H2. }
  rewrite G, Nat.sub_0_r. split; [now intros []|intro H; split; [lia|exact H]].
Qed.
Lemma positions_in i j a b : In (i, j, (Some a, Some b)) positions <-> block V i j a b.
Proof.
  unfold positions, block. rewrite in_flat_map. split.
  - intros ([i' row] & H1 & H2). cbn [fst snd] in H2. apply in_map_iff in H2 as ([j' p] & E & H2). cbn [fst snd] in E. injection E as -> -> ->. exists row. split; apply combine_seq_in; assumption.
  - intros (row & H1 & H2). exists (i, row). split; [now apply combine_seq_in|]. cbn [fst snd]. apply in_map_iff. exists (j, (Some a, Some b)). split; [reflexivity|now apply combine_seq_in].
Qed.
Lemma loops_eq s : ofold (fun s irow => let '(i, row) := irow in
           ofold (fun s jp => let '(j, (V0, V1)) := jp in
               match V0, V1 with
               | Some v0, Some v1 => s0 <- set_or_check (fst s) i v0 ;; s1 <- set_or_check (snd s) j v1 ;; Some (s0, s1)
               | _, _ => Some s
               end) (combine (seq 0 (length row)) row) s) (combine (seq 0 (length V)) V) s = ofold step positions s.
Proof.
  unfold positions. revert s. generalize (combine (seq 0 (length V)) V). induction l as [|[i row] l IH]; intro s; [reflexivity|]. cbn [ofold flat_map]. rewrite ofold_app. cbn [fst snd].
  assert (E : forall r s, ofold (fun s jp => let '(j, (V0, V1)) := jp in
               match V0, V1 with
               | Some v0, Some v1 => s0 <- set_or_check (fst s) i v0 ;; s1 <- set_or_check (snd s) j v1 ;; Some (s0, s1)
               | _, _ => Some s
               end) r s = ofold step (map (fun jp => (i, fst jp, snd jp)) r) s).
  { induction r as [|[j [V0 V1]] r IHr]; intro s0; [reflexivity|]. cbn [ofold map]. unfold step at 1. cbn [fst snd]. destruct V0 as [v0|]; [destruct V1 as [v1|]|]; cbn [obind]; try apply IHr.
    destruct (set_or_check (fst s0) i v0); cbn [obind]; [|reflexivity]. destruct (set_or_check (snd s0) j v1); cbn [obind]; [|reflexivity]. apply IHr. }
  rewrite E. destruct (ofold step _ s) as [s'|]; cbn [obind]; [apply IH|reflexivity].
Qed.
Lemma set_or_check_ok s i v s' : set_or_check s i v = Some s' -> length s' = length s /\ nth_error s' i = Some (Some v) /\ (forall k, k <> i -> nth_error s' k = nth_error s k) /\ (nth_error s i = Some None \/ nth_error s i = Some (Some v)).
Proof.
  unfold set_or_check. destruct (nth_error s i) as [[u|]|] eqn:E; cbn [obind]; [|intro H|discriminate].
  - destruct (Nat.eqb_spec u v) as [->|N]; [|discriminate]. intro H. injection H as <-. auto.
  - split; [exact (upd_length _ _ _ _ H)|]. split; [exact (upd_nth_eq _ _ _ _ H)|]. split; [intros k Hk; exact (upd_nth_neq _ _ _ _ _ H (not_eq_sym Hk))|now left].
Qed.
Definition sound (l : list (nat * nat * (option nat * option nat))) (s : list (option nat) * list (option nat)) : Prop :=
  (forall i a, nth_error (fst s) i = Some (Some a) <-> exists j b, In (i, j, (Some a, Some b)) l) /\
  (forall j b, nth_error (snd s) j = Some (Some b) <-> exists i a, In (i, j, (Some a, Some b)) l).
Lemma steps_sound : forall l n m s, ofold step l (repeat None n, repeat None m) = Some s -> length (fst s) = n /\ length (snd s) = m /\ sound l s.
Proof.
  induction l as [|x l IH] using rev_ind; intros n m s E.
  - injection E as <-. cbn [fst snd]. rewrite !repeat_length. split; [reflexivity|]. split; [reflexivity|].
    split; intros i a; (split; [intro H; apply nth_error_In, repeat_spec in H; discriminate|intros (? & ? & [])]).
  - rewrite ofold_app in E. destruct (ofold step l (repeat None n, repeat None m)) as [s1|] eqn:E1; cbn [obind] in E; [|discriminate]. destruct (IH _ _ _ E1) as (L0 & L1 & H0 & H1).
    cbn [ofold] in E. destruct (step s1 x) as [s'|] eqn:Es; cbn [obind] in E; [|discriminate]. injection E as ->.
    destruct x as [[i j] [[v0|] V1]]; [destruct V1 as [v1|]|]; unfold step in Es; cbn [fst snd] in Es.
    + destruct (set_or_check (fst s1) i v0) as [t0|] eqn:T0; cbn [obind] in Es; [|discriminate]. destruct (set_or_check (snd s1) j v1) as [t1|] eqn:T1; cbn [obind] in Es; [|discriminate]. injection Es as <-. cbn [fst snd].
      destruct (set_or_check_ok _ _ _ _ T0) as (A1 & A2 & A3 & A4). destruct (set_or_check_ok _ _ _ _ T1) as (B1 & B2 & B3 & B4). split; [lia|]. split; [lia|]. split.
      * intros i' a. cbn [fst]. destruct (Nat.eq_dec i' i) as [->|N].
        -- rewrite A2. split; [intro Q; injection Q as <-; exists j, v1; apply in_or_app; right; now left|]. intros (j' & b & Hin). apply in_app_or in Hin as [Hin|[Q|[]]]; [|now injection Q as _ -> _].
           assert (Q : nth_error (fst s1) i = Some (Some a)) by (apply H0; eauto). destruct A4 as [A4|A4]; congruence.
        -- rewrite (A3 i' N), H0. split; intros (j' & b & Hin); exists j', b; [apply in_or_app; now left|]. apply in_app_or in Hin as [Hin|[Q|[]]]; [exact Hin|]. injection Q as -> _ _ _. now elim N.
      * intros j' b. cbn [snd]. destruct (Nat.eq_dec j' j) as [->|N].
        -- rewrite B2. split; [intro Q; injection Q as <-; exists i, v0; apply in_or_app; right; now left|]. intros (i' & a & Hin). apply in_app_or in Hin as [Hin|[Q|[]]]; [|now injection Q as _ _ ->].
           assert (Q : nth_error (snd s1) j = Some (Some b)) by (apply H1; eauto). destruct B4 as [B4|B4]; congruence.
        -- rewrite (B3 j' N), H1. split; intros (i' & a & Hin); exists i', a; [apply in_or_app; now left|]. apply in_app_or in Hin as [Hin|[Q|[]]]; [exact Hin|]. injection Q as _ -> _ _. now elim N.
    + injection Es as <-. split; [exact L0|]. split; [exact L1|]. split; intros k a; [rewrite H0|rewrite H1]; (split; intros (k' & b & Hin); exists k', b; [apply in_or_app; now left|apply in_app_or in Hin as [Hin|[Q|[]]]; [exact Hin|discriminate]]).
    + injection Es as <-. split; [exact L0|]. split; [exact L1|]. split; intros k a; [rewrite H0|rewrite H1]; (split; intros (k' & b & Hin); exists k', b; [apply in_or_app; now left|apply in_app_or in Hin as [Hin|[Q|[]]]; [exact Hin|discriminate]]).
Qed.
Lemma set_or_check_fits s t i v : length s = length t -> (forall k a, nth_error s k = Some (Some a) -> nth_error t k = Some a) -> nth_error t i = Some v ->
  exists s', set_or_check s i v = Some s' /\ length s' = length t /\ forall k a, nth_error s' k = Some (Some a) -> nth_error t k = Some a.
Proof.
  intros L H E. pose proof (nth_error_bound _ _ _ E) as Hi. unfold set_or_check. destruct (nth_error_lt s i ltac:(lia)) as ([u|] & Eu); rewrite Eu; cbn [obind].
  - specialize (H i u Eu) as Q. assert (u = v) as -> by congruence. rewrite Nat.eqb_refl. exists s. auto.
  - destruct (upd_some s i (Some v) ltac:(lia)) as (s' & Es). exists s'. split; [exact Es|]. split; [rewrite (upd_length _ _ _ _ Es); exact L|]. intros k a. rewrite (upd_nth _ _ _ _ _ Es). destruct (Nat.eqb_spec i k) as [<-|N]; [intro Q; injection Q as <-; exact E|apply H].
Qed.
Lemma steps_fit t0 t1 : forall l s, length (fst s) = length t0 -> length (snd s) = length t1 ->
  (forall k a, nth_error (fst s) k = Some (Some a) -> nth_error t0 k = Some a) -> (forall k a, nth_error (snd s) k = Some (Some a) -> nth_error t1 k = Some a) ->
  (forall i j a b, In (i, j, (Some a, Some b)) l -> nth_error t0 i = Some a /\ nth_error t1 j = Some b) -> exists s', ofold step l s = Some s'.
Proof.
  induction l as [|x l IH]; intros s L0 L1 H0 H1 H; [now exists s|]. cbn [ofold].
  destruct x as [[i j] [[v0|] V1]]; [destruct V1 as [v1|]|]; unfold step at 1; cbn [fst snd obind]; try (apply IH; auto; intros; apply H; now right).
  destruct (H i j v0 v1 (or_introl eq_refl)) as [E0 E1]. destruct (set_or_check_fits _ _ _ _ L0 H0 E0) as (s0 & -> & A & B). destruct (set_or_check_fits _ _ _ _ L1 H1 E1) as (s1 & -> & C & D). cbn [obind]. apply IH; auto. intros; apply H; now right.
Qed.
Lemma no_null_ok s t : no_null s = Some t <-> s = map Some t.
Proof.
  unfold no_null. revert t. induction s as [|x s IH]; intro t; cbn [omap].
  - split; [intro E; now injection E as <-|destruct t; [reflexivity|discriminate]].
  - destruct x as [a|]; cbn [obind]; [|split; [discriminate|destruct t; discriminate]]. destruct (omap (fun s => s) s) as [u|] eqn:E; cbn [obind].
    + split; [intro Q; injection Q as <-; cbn [map]; f_equal; now apply IH|]. destruct t as [|b t]; [discriminate|]. intro Q. injection Q as -> Q. apply IH in Q. congruence.
    + split; [discriminate|]. destruct t as [|b t]; [discriminate|]. intro Q. injection Q as -> Q. apply IH in Q. discriminate.
Qed.
Lemma map_some_nth (s : list (option nat)) t : s = map Some t <-> length s = length t /\ forall k a, nth_error t k = Some a -> nth_error s k = Some (Some a).
Proof.
  split; [intros ->; split; [apply map_length|intros k a E; rewrite nth_error_map, E; reflexivity]|]. intros [L H]. apply nth_error_ext. intro k. rewrite nth_error_map.
  destruct (nth_error t k) as [a|] eqn:E; cbn [option_map]; [now apply H|]. apply nth_error_None. apply nth_error_None in E. lia.
Qed.
Lemma common_ok n m s0 s1 : length V = n -> 0 < n -> (forall row, In row V -> length row = m) ->
  (common_function_spaces V = Some (s0, s1) <->
   length s0 = n /\ length s1 = m /\ (forall i j a b, block V i j a b -> nth_error s0 i = Some a /\ nth_error s1 j = Some b) /\
   (forall i, i < n -> exists j a b, block V i j a b) /\ (forall j, j < m -> exists i a b, block V i j a b)).
Proof.
  intros Ln Hn Hm.
  assert (E : common_function_spaces V = (s <- ofold step positions (repeat None n, repeat None m) ;; s0 <- no_null (fst s) ;; s1 <- no_null (snd s) ;; Some (s0, s1))).
  { rewrite <- loops_eq. unfold common_function_spaces. rewrite Ln. revert Ln Hm. destruct V as [|front V']; intros Ln Hm; [cbn in Ln; lia|]. rewrite (Hm front) by now left. reflexivity. }
  rewrite E. clear E. destruct (ofold step positions (repeat None n, repeat None m)) as [s|] eqn:Es; cbn [obind].
  - destruct (steps_sound _ _ _ _ Es) as (L0 & L1 & S0 & S1).
    assert (Q0 : forall t, fst s = map Some t <-> length t = n /\ (forall i j a b, block V i j a b -> nth_error t i = Some a) /\ forall i, i < n -> exists j a b, block V i j a b).
    { intro t. rewrite map_some_nth. split.
      - intros [L H]. split; [lia|]. split.
        + intros i j a b Hb. apply positions_in in Hb. assert (Q : nth_error (fst s) i = Some (Some a)) by (apply S0; eauto). destruct (nth_error_lt t i) as (a' & Ea); [pose proof (nth_error_bound _ _ _ Q); lia|]. rewrite (H i a' Ea) in Q. congruence.
        + intros i Hi. destruct (nth_error_lt t i ltac:(lia)) as (a & Ea). apply H, S0 in Ea as (j & b & Hin). exists j, a, b. now apply positions_in.
      - intros (L & H & Hr). split; [lia|]. intros k a Ea. destruct (Hr k) as (j & a' & b & Hb); [pose proof (nth_error_bound _ _ _ Ea); lia|]. rewrite (H _ _ _ _ Hb) in Ea. injection Ea as <-. apply S0. exists j, b. now apply positions_in. }
    assert (Q1 : forall t, snd s = map Some t <-> length t = m /\ (forall i j a b, block V i j a b -> nth_error t j = Some b) /\ forall j, j < m -> exists i a b, block V i j a b).
    { intro t. rewrite map_some_nth. split.
      - intros [L H]. split; [lia|]. split.
        + intros i j a b Hb. apply positions_in in Hb. assert (Q : nth_error (snd s) j = Some (Some b)) by (apply S1; eauto). destruct (nth_error_lt t j) as (b' & Ea); [pose proof (nth_error_bound _ _ _ Q); lia|]. rewrite (H j b' Ea) in Q. congruence.
        + intros j Hj. destruct (nth_error_lt t j ltac:(lia)) as (b & Ea). apply H, S1 in Ea as (i & a & Hin). exists i, a, b. now apply positions_in.
      - intros (L & H & Hr). split; [lia|]. intros k b Ea. destruct (Hr k) as (i & a & b' & Hb); [pose proof (nth_error_bound _ _ _ Ea); lia|]. rewrite (H _ _ _ _ Hb) in Ea. injection Ea as <-. apply S1. exists i, a. now apply positions_in. }
    split.
    + intro E. destruct (no_null (fst s)) as [t0|] eqn:N0; cbn [obind] in E; [|discriminate]. destruct (no_null (snd s)) as [t1|] eqn:N1; cbn [obind] in E; [|discriminate]. injection E as -> ->.
      apply no_null_ok, Q0 in N0 as (A & B & C). apply no_null_ok, Q1 in N1 as (D & F & G). split; [exact A|]. split; [exact D|]. split; [|now split]. intros i j a b Hb. split; [exact (B _ _ _ _ Hb)|exact (F _ _ _ _ Hb)].
    + intros (A & B & C & D & F). assert (N0 : no_null (fst s) = Some s0) by (apply no_null_ok, Q0; split; [exact A|]; split; [intros i j a b Hb; now apply (C _ _ _ _ Hb)|exact D]).
      assert (N1 : no_null (snd s) = Some s1) by (apply no_null_ok, Q1; split; [exact B|]; split; [intros i j a b Hb; now apply (C _ _ _ _ Hb)|exact F]). rewrite N0, N1. reflexivity.
  - split; [discriminate|]. intros (A & B & C & _). destruct (steps_fit s0 s1 positions (repeat None n, repeat None m)) as (s' & Es'); cbn [fst snd]; rewrite ?repeat_length; auto.
    + intros k a H. apply nth_error_In, repeat_spec in H. discriminate.
    + intros k a H. apply nth_error_In, repeat_spec in H. discriminate.
    + intros i j a b Hin. apply C. now apply positions_in.
    + congruence.
Qed.
End Common.
