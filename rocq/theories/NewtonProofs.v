(** Proofs about the Newton solver, for property C82. *)
From Verif Require Import Base Newton NewtonSpec.
Open Scope nat_scope.

Section Proofs.
Variables (K V M : Type) (zero one minus_one : K) (norm : V -> K) (w : newton K V M) (F : V -> V) (J : V -> M) (x0 b0 : V).
Hypothesis HF : nw_F K V M w = Some F.
Hypothesis HJ : nw_J K V M w = Some J.
Hypothesis Hc : nw_criterion K V M w <> OtherCriterion.
Definition incr := match nw_criterion K V M w with Incremental => true | _ => false end.
Definition sys := call_system K V M w.
Definition Pm (x : V) := match nw_P K V M w with Some f => f x | None => J x end.

Definition init : nstate K V :=
  let x := sys x0 in let b := F x in
  let v0 := mkView K 0 0 minus_one zero in
  if incr then mkNS K V v0 x b false else let '(r, c) := nw_converged K V M w v0 b in mkNS K V (mkView K 0 0 r zero) x b c.
Definition step (s : nstate K V) : nstate K V := match newton_step K V M one norm w F J s with Some s => s | None => s end.
Fixpoint states (k : nat) : nstate K V := match k with 0 => init | S k => step (states k) end.

Definition y k := ns_x K V (states k).
Definition dx k := fst (nw_ksp K V M w (J (y k)) (Pm (y k)) (F (y k))).
Definition its k := snd (nw_ksp K V M w (J (y k)) (Pm (y k)) (F (y k))).
Definition res k := nv_res K (ns_view K V (states k)).
Definition test k := ns_conv K V (states k).
Definition refn := reference K V zero norm dx.

Lemma step_some s : newton_step K V M one norm w F J s = Some (step s).
Proof.
  unfold step, newton_step. destruct (nw_ksp K V M w _ _ _) as [d n].
  destruct (nw_criterion K V M w); [|destruct (_ =? 1)|congruence]; try (destruct (nw_converged K V M w _ _)); reflexivity.
Qed.

Lemma states_ok k : nv_it K (ns_view K V (states k)) = k /\ nv_kit K (ns_view K V (states k)) = total its k /\
  nv_res0 K (ns_view K V (states k)) = refn k /\ ns_b K V (states k) = F (y k) /\
  (k = 0 -> y 0 = sys x0 /\ if incr then res 0 = minus_one /\ test 0 = false else (res 0, test 0) = nw_converged K V M w (mkView K 0 0 minus_one zero) (F (y 0))) /\
  forall j, k = S j ->
    y k = sys (nw_update K V M w (mkView K j (total its k) (res j) (refn j)) (dx j) (y j)) /\
    (incr = true -> j = 0 -> res 1 = one /\ test 1 = false) /\
    (incr = false \/ 0 < j -> (res k, test k) = nw_converged K V M w (mkView K k (total its k) (res j) (refn k)) (if incr then dx j else F (y k))).
Proof.
  induction k as [|j IH].
  - unfold y, res, test. cbn [states total reference refn]. unfold init.
    destruct incr; [|destruct (nw_converged K V M w _ _) as [r c] eqn:E]; cbn [ns_x ns_b ns_view ns_conv nv_it nv_kit nv_res nv_res0];
      (repeat split; try reflexivity; try discriminate); try (symmetry; exact E).
    all: match goal with H : 0 = S _ |- _ => discriminate H | _ => idtac end.
  - destruct IH as (I1 & I2 & I3 & I4 & _ & _).
    assert (Ed : nw_ksp K V M w (J (ns_x K V (states j))) (match nw_P K V M w with Some f => f (ns_x K V (states j)) | None => J (ns_x K V (states j)) end) (ns_b K V (states j)) = (dx j, its j)).
    { rewrite I4. unfold dx, its. rewrite <- surjective_pairing. reflexivity. }
    assert (Es : newton_step K V M one norm w F J (states j) = Some (states (S j))) by apply step_some.
    unfold newton_step in Es. rewrite Ed in Es. cbn [nv_it nv_kit nv_res nv_res0] in Es. rewrite I1, I2, I3 in Es.
    fold (res j) (y j) in Es. change (total its j + its j) with (total its (S j)) in Es.
    set (x := call_system K V M w _) in Es. change (sys (nw_update K V M w (mkView K j (total its (S j)) (res j) (refn j)) (dx j) (y j))) with x.
    assert (Ev : (if S j =? 1 then mkView K (S j) (total its (S j)) (res j) (norm (dx j)) else mkView K (S j) (total its (S j)) (res j) (refn j)) = mkView K (S j) (total its (S j)) (res j) (refn (S j)))
      by (destruct j; reflexivity).
    rewrite Ev in Es. cbn [nv_it nv_kit nv_res nv_res0] in Es. clear Ev.
    assert (Hi : incr = match nw_criterion K V M w with Incremental => true | _ => false end) by reflexivity.
    destruct (nw_criterion K V M w); [| |congruence]; rewrite Hi.
    + destruct (nw_converged K V M w _ _) as [r c] eqn:E in Es.
      injection Es as Es. change (step (states j)) with (states (S j)) in Es.
      assert (Ey : y (S j) = x) by (unfold y; now rewrite <- Es).
      rewrite Ey. unfold res at 2, test at 2. unfold res, test. rewrite <- Es. cbn [ns_x ns_b ns_view ns_conv nv_it nv_kit nv_res nv_res0].
      do 4 (split; [reflexivity|]). split; [discriminate|]. intros j' Ej. injection Ej as <-. split; [reflexivity|]. split; [discriminate|]. intros _. symmetry. exact E.
    + destruct (Nat.eqb_spec (S j) 1) as [E1|N1].
      * injection Es as Es. change (step (states j)) with (states (S j)) in Es.
        assert (Ey : y (S j) = x) by (unfold y; now rewrite <- Es). rewrite Ey.
        assert (E0 : j = 0) by lia. subst j.
        unfold res, test. rewrite <- Es. cbn [ns_x ns_b ns_view ns_conv nv_it nv_kit nv_res nv_res0].
        do 4 (split; [reflexivity|]). split; [discriminate|]. intros j' Ej. injection Ej as <-. split; [reflexivity|]. split; [intros _ _; split; reflexivity|]. intros [H|H]; [discriminate|lia].
      * destruct (nw_converged K V M w _ _) as [r c] eqn:E in Es. injection Es as Es. change (step (states j)) with (states (S j)) in Es.
        assert (Ey : y (S j) = x) by (unfold y; now rewrite <- Es). rewrite Ey.
        unfold res at 2, test at 2. unfold res, test. rewrite <- Es. cbn [ns_x ns_b ns_view ns_conv nv_it nv_kit nv_res nv_res0].
        do 4 (split; [reflexivity|]). split; [discriminate|]. intros j' Ej. injection Ej as <-. split; [reflexivity|]. split; [intros; lia|]. intros _. symmetry. exact E.
Qed.

Lemma sequence_ok : newton_sequence K V M zero one minus_one norm F J Pm sys (nw_update K V M w) (nw_ksp K V M w) (nw_converged K V M w) incr x0 y dx its res test.
Proof.
  constructor.
  - destruct (states_ok 0) as (_ & _ & _ & _ & H & _). exact (proj1 (H eq_refl)).
  - intro k. unfold dx, its. now rewrite <- surjective_pairing.
  - intro k. destruct (states_ok (S k)) as (_ & _ & _ & _ & _ & H). exact (proj1 (H k eq_refl)).
  - destruct (states_ok 0) as (_ & _ & _ & _ & H & _). specialize (H eq_refl). destruct H as [_ H].
    destruct (states_ok 1) as (_ & _ & _ & _ & _ & H1). specialize (H1 0 eq_refl). destruct H1 as (_ & H1 & _).
    destruct incr; [|exact H]. destruct H as [Ha Hb]. destruct (H1 eq_refl eq_refl) as [Hd He]. auto.
  - intros k Hk. destruct (states_ok (S k)) as (_ & _ & _ & _ & _ & H). exact (proj2 (proj2 (H k eq_refl)) Hk).
Qed.

Lemma loop_ok fuel : forall j, (nw_max_it K V M w <= Z.of_nat (j + fuel))%Z -> (Z.of_nat j <= Z.max 0 (nw_max_it K V M w))%Z ->
  (forall i, i < j -> test i = false) ->
  exists k, stops_at test (nw_max_it K V M w) k /\ newton_loop K V M one norm w fuel F J (states j) = Some (states k).
Proof.
  induction fuel as [|fuel IH]; intros j Hf Hj Hb; cbn [newton_loop]; destruct (states_ok j) as (I1 & _); rewrite I1; fold (test j).
  - destruct (test j) eqn:Et; cbn [negb andb].
    + exists j. split; [|reflexivity]. split; [exact Hj|]. split; [exact Hb|]. now left.
    + destruct (Z.ltb_spec (Z.of_nat j) (nw_max_it K V M w)) as [L|L]; [lia|]. exists j. split; [|reflexivity]. split; [exact Hj|]. split; [exact Hb|]. now right.
  - destruct (test j) eqn:Et; cbn [negb andb].
    + exists j. split; [|reflexivity]. split; [exact Hj|]. split; [exact Hb|]. now left.
    + destruct (Z.ltb_spec (Z.of_nat j) (nw_max_it K V M w)) as [L|L].
      * rewrite step_some. cbn [obind]. change (step (states j)) with (states (S j)). apply IH; [lia|lia|].
        intros i Hi. destruct (Nat.eq_dec i j) as [->|Ni]; [exact Et|apply Hb; lia].
      * exists j. split; [|reflexivity]. split; [exact Hj|]. split; [exact Hb|]. now right.
Qed.

Lemma newton_ok : exists y dx its res test,
  newton_sequence K V M zero one minus_one norm F J Pm sys (nw_update K V M w) (nw_ksp K V M w) (nw_converged K V M w) incr x0 y dx its res test /\
  exists k, stops_at test (nw_max_it K V M w) k /\
  let s := mkNS K V (mkView K k (total its k) (res k) (reference K V zero norm dx k)) (y k) (F (y k)) (test k) in
  newton_solve K V M zero one minus_one norm w x0 b0 = Some (
    if test k || negb (nw_error K V M w) then Returned K V s
    else Thrown K V (if (Z.of_nat k =? nw_max_it K V M w)%Z then MaxIterations else NotConverged) s).
Proof.
  exists y, dx, its, res, test. split; [exact sequence_ok|].
  destruct (loop_ok (Z.to_nat (nw_max_it K V M w)) 0) as (k & Hk & El); [lia|lia|intros; lia|].
  exists k. split; [exact Hk|]. intro s.
  assert (Es : states k = s).
  { destruct (states_ok k) as (I1 & I2 & I3 & I4 & _). unfold s. rewrite <- I4. fold refn. rewrite <- I3, <- I2. rewrite <- I1 at 2. unfold res, y, test. destruct (states k) as [[a b c d] e f g]. reflexivity. }
  unfold newton_solve. rewrite HF, HJ. cbv zeta. fold sys.
  assert (E0 : match nw_criterion K V M w with
     | OtherCriterion => Some (Thrown K V UnknownCriterion (mkNS K V (mkView K 0 0 minus_one zero) (sys x0) (F (sys x0)) false))
     | cr => let '(v, c) := match cr with Residual => let '(r, c) := nw_converged K V M w (mkView K 0 0 minus_one zero) (F (sys x0)) in (mkView K 0 0 r zero, c) | _ => (mkView K 0 0 minus_one zero, false) end in
        s <- newton_loop K V M one norm w (Z.to_nat (nw_max_it K V M w)) F J (mkNS K V v (sys x0) (F (sys x0)) c) ;;
        Some (if ns_conv K V s then Returned K V s else if nw_error K V M w then if (Z.of_nat (nv_it K (ns_view K V s)) =? nw_max_it K V M w)%Z then Thrown K V MaxIterations s else Thrown K V NotConverged s else Returned K V s)
     end = s <- newton_loop K V M one norm w (Z.to_nat (nw_max_it K V M w)) F J (states 0) ;;
        Some (if ns_conv K V s then Returned K V s else if nw_error K V M w then if (Z.of_nat (nv_it K (ns_view K V s)) =? nw_max_it K V M w)%Z then Thrown K V MaxIterations s else Thrown K V NotConverged s else Returned K V s)).
  { cbn [states]. unfold init, incr. destruct (nw_criterion K V M w); [|reflexivity|congruence]. destruct (nw_converged K V M w _ _) as [r c]. reflexivity. }
  rewrite E0, El. cbn [obind]. rewrite Es. unfold s. cbn [ns_conv ns_view nv_it].
  destruct (test k); cbn [orb]; [reflexivity|]. destruct (nw_error K V M w); cbn [negb]; [|reflexivity].
  destruct (Z.of_nat k =? nw_max_it K V M w)%Z; reflexivity.
Qed.
End Proofs.
