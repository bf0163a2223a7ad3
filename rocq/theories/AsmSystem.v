(** Matrices with boundary conditions, lifting of several forms, and the linear system. *)
From Coq Require Import Ring.
From Verif Require Import Base BaseProofs StackProofs Algo AlgoProofs MatrixCSR MatrixSpec MatrixProofs DirichletBC BcProofs Assemble AssembleSpec AsmBlocks AsmSums AsmVector AsmMatrix AsmCsr AssembleBC AssembleBcSpec AsmLift AsmBC.
Open Scope nat_scope.

Section Mat.
Context {T U : Type}.
Variables (zero : T) (add : T -> T -> T).
Hypothesis add_0_l : forall a, add zero a = a.
Hypothesis add_comm : forall a b, add a b = add b a.
Hypothesis add_assoc : forall a b c, add a (add b c) = add (add a b) c.
Lemma assemble_bcs_ok bs0 bs1 (a : @form T U) types x constants cf bls V0 V1 dim0 dim1 bcs A :
  has_mb zero bs0 bs1 a types x constants cf bls -> in_dims bs0 bs1 dim0 dim1 a bls -> fits A bs0 bs1 bls ->
  (forall b d, In b (on V0 bcs) -> In d (bc_dofs0 b) -> d < dim0) -> (forall b d, In b (on V1 bcs) -> In d (bc_dofs0 b) -> d < dim1) ->
  exists A', assemble_matrix_bcs zero (fun A rows cols v => mat_add add bs0 bs1 A v rows cols) V0 V1 dim0 dim1 a types x constants cf bcs A = Some A' /\ csr_ok A' /\ same_pattern A A' /\
    forall I J, dense zero A' I J = add (dense zero A I J) (if constrained (on V0 bcs) I || constrained (on V1 bcs) J then zero else mat_sum zero add bs0 bs1 bls I J).
Proof.
  intros (Hb0 & Hb1 & Hct & HK & HF & E) (Hd & Hi) (HA & Hs & Hp) H0 H1. unfold assemble_matrix_bcs.
  destruct (build_markers_ok V0 dim0 bcs H0) as (m0 & E0 & L0 & M0). destruct (build_markers_ok V1 dim1 bcs H1) as (m1 & E1 & L1 & M1). rewrite E0, E1. cbn [obind].
  destruct (assemble_csr_ok zero add add_0_l add_comm add_assoc A bs0 bs1 Hb0 Hb1 Hs m0 m1 x constants cf a types bls A Hct HK HF E) as (A' & EA & HA' & HS & HD).
  - intros bl Hbl. destruct (Hd bl Hbl) as (D0 & D1). split; [|split].
    + intros r Hr. split; [intros k Hk; apply (Hp bl r k Hbl Hr Hk)|]. intro Hm. rewrite (L0 Hm). now apply D0.
    + intros c Hc Hm. rewrite (L1 Hm). now apply D1.
    + intros r c Hr Hc k l Hk Hl. now apply (Hp bl r k Hbl Hr Hk).
  - intro Hf. destruct (Hi Hf) as (I0 & I1). split; intro Hm; [rewrite (L0 Hm)|rewrite (L1 Hm)]; assumption.
  - exact HA.
  - now split.
  - exists A'. split; [exact EA|]. split; [exact HA'|]. split; [exact HS|]. intros I J. rewrite HD, M0, M1. reflexivity.
Qed.
End Mat.

Section Sys.
Context {T U : Type}.
Variables (zero one : T) (add mul sub : T -> T -> T) (opp : T -> T).
Hypothesis Rth : ring_theory zero one add mul sub opp eq.
Add Ring R3 : Rth.
Variable eqb : T -> T -> bool.
Hypothesis eqb_ok : forall x y, eqb x y = true <-> x = y.
Notation sum := (sum zero add).
Notation tsum := (tsum zero add).
Notation r0l := (r0l zero one add mul sub opp Rth).
Notation rcomm := (rcomm zero one add mul sub opp Rth).
Notation rassoc := (rassoc zero one add mul sub opp Rth).

Lemma by_bs2_eq {X} bs0 bs1 (f : nat -> nat -> X) : by_bs2 bs0 bs1 f = f bs0 bs1.
Proof.
  unfold by_bs2. destruct ((bs0 =? 1) && (bs1 =? 1)) eqn:E1; [apply andb_prop in E1 as (H & H'); apply Nat.eqb_eq in H, H'; now subst|].
  destruct ((bs0 =? 3) && (bs1 =? 3)) eqn:E3; [apply andb_prop in E3 as (H & H'); apply Nat.eqb_eq in H, H'; now subst|reflexivity].
Qed.

(** What the form [f] with the blocks [bls] and the conditions [bcs] subtracts from entry [q]. *)
Definition lift_term (f : @lform T U) (bls : list mblock) (bcs : list (bc T)) (x0 : list T) (alpha : T) (q : nat) : T :=
  tsum (lf_crange f) (fun J => mul (mat_sum zero add (lf_bs0 f) (lf_bs1 f) bls q J) (increment zero mul sub bcs (Some x0) alpha J)).
Definition lift_mb (n : nat) (f : @lform T U) (bls : list mblock) (bcs : list (bc T)) (x0 : list T) : Prop :=
  has_mb zero (lf_bs0 f) (lf_bs1 f) (lf_form f) (lf_types f) (lf_x f) (lf_constants f) (lf_coefs f) bls /\
  in_dims (lf_bs0 f) (lf_bs1 f) n (lf_crange f) (lf_form f) bls /\ bcs_ok bcs (lf_crange f) /\ (x0 = [] \/ lf_crange f <= length x0).
Lemma lift_term_nil f bls x0 alpha q : lift_term f bls [] x0 alpha q = zero.
Proof. apply (tsum_zero zero add r0l). intros J _. unfold increment, prescribed. cbn. ring. Qed.
Lemma lift_one n f bls bcs x0 alpha : lift_mb n f bls bcs x0 ->
  vadds zero add n (fun b => '(markers, values) <- bc_arrays zero one mul sub eqb (lf_crange f) bcs ;;
      by_bs2 (lf_bs0 f) (lf_bs1 f) (fun bs0 bs1 => lift_bc zero mul sub bs0 bs1 (lf_form f) (lf_types f) (lf_x f) (lf_constants f) (lf_coefs f) values markers x0 alpha b))
    (fun q => opp (lift_term f bls bcs x0 alpha q)).
Proof.
  intros ((Hb0 & Hb1 & Hct & HK & HF & E) & (Hd & Hi) & Hbcs & Hx0) b Hb.
  destruct (bc_arrays_ok zero one add mul sub opp Rth eqb eqb_ok (lf_crange f) bcs Hbcs) as (m & v & Eb & Lm & Lv & M & V). rewrite Eb. cbn [obind]. rewrite by_bs2_eq.
  destruct (lift_bc_ok (U := U) zero one add mul sub opp Rth n (lf_bs0 f) (lf_bs1 f) alpha v m x0 Hb0 Hb1) with (x := lf_x f) (constants := lf_constants f) (cf := lf_coefs f) (a := lf_form f) (types := lf_types f) (bls := bls) (b := b) as (b' & E' & L' & V').
  - congruence.
  - destruct Hx0 as [->|Hx0]; [now left|right; congruence].
  - exact Hct.
  - exact HK.
  - exact HF.
  - exact E.
  - intros bl r Hbl. now apply Hd.
  - intros bl c Hbl. rewrite Lm. now apply Hd.
  - intro Hf. rewrite Lm. now apply Hi.
  - exact Hb.
  - exists b'. split; [exact E'|]. split; [exact L'|]. intros q Hq. rewrite (V' q Hq), Lm.
    assert (Et : tsum (lf_crange f) (fun J => mul (mat_sum zero add (lf_bs0 f) (lf_bs1 f) bls q J) (incr zero mul sub alpha v m x0 J)) = lift_term f bls bcs x0 alpha q).
    { apply tsum_ext. intros J _. f_equal. unfold incr, increment. rewrite M, V, (constrained_prescribed bcs _ J Hbcs). destruct (prescribed bcs J); [reflexivity|reflexivity]. }
    rewrite Et. ring.
Qed.
Lemma apply_lifting_ok n (a : list (option lform)) (bcs1 : list (list (bc T))) (x0 : list (list T)) alpha (blss : list (list mblock)) b :
  length bcs1 = length a -> (x0 = [] \/ length x0 = length a) ->
  (forall j f bcs, nth_error a j = Some (Some f) -> nth_error bcs1 j = Some bcs -> bcs <> [] -> lift_mb n f (nth j blss []) bcs (nth j x0 [])) -> length b = n ->
  exists b', apply_lifting zero one mul sub eqb a bcs1 x0 alpha b = Some b' /\ length b' = n /\
    forall q, q < n -> nth q b' zero = sub (nth q b zero) (tsum (length a) (fun j => match nth j a None with Some f => lift_term f (nth j blss []) (nth j bcs1 []) (nth j x0 []) alpha q | None => zero end)).
Proof.
  intros Hl Hx Hok Hb. unfold apply_lifting. destruct (forallb _ a) eqn:Ea.
  - exists b. split; [reflexivity|]. split; [exact Hb|]. intros q _. rewrite (tsum_zero zero add r0l); [ring|]. intros j Hj. rewrite forallb_forall in Ea. specialize (Ea (nth j a None) (nth_In _ _ Hj)). destruct (nth j a None); [discriminate|reflexivity].
  - destruct (match x0 with [] => false | _ => _ end) eqn:Ex.
    { exfalso. destruct x0 as [|y x0]; [discriminate|]. destruct Hx as [|Hx]; [discriminate|]. rewrite Hx, Nat.eqb_refl in Ex. discriminate. }
    rewrite <- Hl, Nat.eqb_refl. cbn [negb].
    match goal with |- context [ofold ?g (enum a)] => set (F := g) end. clear Ea Ex.
    assert (HF : vadds zero add n (ofold F (enum a)) (fun q => sum (map (fun p => opp (match snd p with Some f => lift_term f (nth (fst p) blss []) (nth (fst p) bcs1 []) (nth (fst p) x0 []) alpha q | None => zero end)) (enum a)))).
    { apply (adds_ofold zero add r0l rcomm rassoc). intros [j aj] Hin. cbn [fst snd]. apply in_enum_nth in Hin. pose proof (nth_error_bound _ _ _ Hin) as Hj. unfold F. rewrite (nth_error_nth' bcs1 []) by lia. cbn [obind]. set (bcs := nth j bcs1 []).
      assert (Id : forall h, (forall q, h q = zero) -> vadds zero add n Some h) by (intros h Hh; apply (adds_eq add _ _ _ Some Some (fun _ => zero)); [apply (adds_id zero add r0l rcomm)|reflexivity|intros q _; apply Hh]).
      destruct aj as [f|]; [|apply Id; intro q; ring]. destruct bcs as [|b0 bcs'] eqn:Eb; [apply Id; intro q; rewrite lift_term_nil; ring|].
      assert (Ex : match x0 with [] => Some [] | _ => nth_error x0 j end = Some (nth j x0 [])).
      { destruct x0 as [|y x0']; [now destruct j|]. apply nth_error_nth'. destruct Hx as [|Hx]; [discriminate|]. lia. }
      rewrite Ex. cbn [obind]. apply lift_one. apply (Hok j f); [exact Hin| |discriminate]. rewrite <- Eb. unfold bcs. apply nth_error_nth'. lia. }
    destruct (HF b Hb) as (b' & E & L & V). exists b'. split; [exact E|]. split; [exact L|]. intros q Hq. rewrite (V q Hq).
    rewrite (sum_enum zero add a None (fun j aj => opp (match aj with Some f => lift_term f (nth j blss []) (nth j bcs1 []) (nth j x0 []) alpha q | None => zero end))). rewrite Hl, <- (tsum_opp zero one add mul sub opp Rth). ring.
Qed.

(** The linear system. *)
Lemma system_ok n bs (a : @form T U) types x constants cf bls V (bcsV : list (sid * bc T)) A0 b0 x0 alpha :
  let bcs := map snd bcsV in
  let lf := mkLf a types x constants cf bs bs n in
  has_mb zero bs bs a types x constants cf bls -> in_dims bs bs n n a bls -> fits A0 bs bs bls ->
  (forall p, In p bcsV -> contains V (fst p) = true) -> bcs_ok bcs n -> (forall b, In b bcs -> bc_num_owned b = length (bc_dofs0 b)) ->
  (forall d, constrained bcs d = true -> in_pattern A0 d d) ->
  (forall I J, dense zero A0 I J = zero) -> length b0 = n -> long0 x0 n ->
  exists AU A1 A2 b1 b2,
    assemble_matrix_bcs zero (fun A rows cols v => mat_add add bs bs A v rows cols) V V n n a types x constants cf [] A0 = Some AU /\
    assemble_matrix_bcs zero (fun A rows cols v => mat_add add bs bs A v rows cols) V V n n a types x constants cf bcsV A0 = Some A1 /\
    set_diagonal_bcs (fun A rows cols v => mat_set 1 1 A v rows cols) V bcsV one A1 = Some A2 /\
    apply_lifting zero one mul sub eqb [Some lf] [bcs] (match x0 with Some l => [l] | None => [] end) alpha b0 = Some b1 /\
    set_bcs zero mul sub eqb bcs x0 alpha b1 = Some b2 /\ length b2 = n /\
    forall y : nat -> T, (forall I, I < n -> tsum n (fun J => mul (dense zero A2 I J) (y J)) = nth I b2 zero) <->
      (forall I g, prescribed bcs I = Some g -> y I = mul alpha (sub g (at0 zero x0 I))) /\
      (forall I, I < n -> prescribed bcs I = None -> tsum n (fun J => mul (dense zero AU I J) (y J)) = nth I b0 zero).
Proof.
  intros bcs lf HB HD HF HV Hbcs Hown Hdiag HZ Hb0 Hx0.
  assert (Eon : on V bcsV = bcs). { unfold on, bcs. f_equal. clear -HV. induction bcsV as [|p l IH]; [reflexivity|]. cbn [filter]. rewrite (HV p) by now left. f_equal. apply IH. intros q Hq. apply HV. now right. }
  assert (Hlt : forall b d, In b bcs -> In d (bc_dofs0 b) -> d < n). { intros b d Hb Hd. apply In_nth_error in Hd as (k & Hk). apply (Hbcs b Hb k d Hk). }
  destruct (assemble_bcs_ok zero add r0l rcomm rassoc bs bs a types x constants cf bls V V n n [] A0 HB HD HF) as (AU & EU & _ & _ & DU); [intros b d []|intros b d []|].
  destruct (assemble_bcs_ok zero add r0l rcomm rassoc bs bs a types x constants cf bls V V n n bcsV A0 HB HD HF) as (A1 & E1 & HA1 & (S0 & S1 & S2 & S3) & D1); [rewrite Eon; exact Hlt|rewrite Eon; exact Hlt|]. rewrite Eon in D1.
  assert (Eown : forall d, constrained_owned bcs d = constrained bcs d). { intro d. unfold constrained_owned, constrained. clear -Hown. induction bcs as [|b l IH]; [reflexivity|]. cbn [existsb]. rewrite (Hown b), firstn_all by now left. f_equal. apply IH. intros b' Hb'. apply Hown. now right. }
  destruct (set_diagonal_bcs_ok zero add V bcsV one A1 HA1) as (A2 & E2 & _ & _ & D2). { intros d Hd. rewrite Eon, Eown in Hd. unfold in_pattern. rewrite S0, S1, S2, S3. now apply Hdiag. }
  rewrite Eon in D2.
  destruct (apply_lifting_ok n [Some lf] [bcs] (match x0 with Some l => [l] | None => [] end) alpha [bls] b0) as (b1 & Eb1 & Lb1 & V1).
  - reflexivity.
  - destruct x0; [now right|now left].
  - intros j f bcs' Hj Hbj Hne. destruct j as [|[|j]]; cbn in Hj, Hbj; [|discriminate|discriminate]. injection Hj as <-. injection Hbj as <-. cbn [nth]. split; [exact HB|]. split; [exact HD|]. split; [exact Hbcs|]. cbn [lf_crange lf]. destruct x0; [right; exact Hx0|now left].
  - exact Hb0.
  - destruct (set_bcs_ok zero one add mul sub opp Rth eqb eqb_ok bcs b1 x0 alpha) as (b2 & Eb2 & Lb2 & V2); [now rewrite Lb1|now rewrite Lb1|].
    exists AU, A1, A2, b1, b2. do 5 (split; [assumption|]). split; [congruence|]. intro y.
    set (inc := increment zero mul sub bcs x0 alpha). set (K := fun I J => dense zero AU I J).
    assert (CP : forall d, constrained bcs d = match prescribed bcs d with Some _ => true | None => false end) by (intro d; apply (constrained_prescribed bcs n d Hbcs)).
    assert (HK : forall I J, K I J = mat_sum zero add bs bs bls I J). { intros I J. unfold K. rewrite DU, HZ. unfold on. cbn. ring. }
    assert (R1 : forall I g, prescribed bcs I = Some g -> tsum n (fun J => mul (dense zero A2 I J) (y J)) = y I).
    { intros I g Hg. assert (HI : constrained bcs I = true) by now rewrite CP, Hg. rewrite (tsum_one zero add r0l rcomm rassoc n _ I (constrained_lt bcs n I Hbcs HI)).
      - rewrite D2, Nat.eqb_refl, Eown, HI. cbn [andb]. ring.
      - intros J _ N. rewrite D2. destruct (Nat.eqb_spec I J); [congruence|]. cbn [andb]. rewrite D1, HZ, HI. cbn [orb]. ring. }
    assert (R2 : forall I J, prescribed bcs I = None -> dense zero A2 I J = if constrained bcs J then zero else K I J).
    { intros I J HI. assert (HI' : constrained bcs I = false) by now rewrite CP, HI. rewrite D2, Eown, HI', Bool.andb_false_r, D1, HZ, HI', HK. cbn [orb]. destruct (constrained bcs J); ring. }
    assert (B1 : forall I, I < n -> nth I b1 zero = sub (nth I b0 zero) (tsum n (fun J => mul (K I J) (inc J)))).
    { intros I HI. rewrite (V1 I HI). f_equal. cbn [length]. rewrite (tsum_S zero add r0l rcomm rassoc), tsum_0. cbn [nth]. rewrite r0l. unfold lift_term. cbn [lf_crange lf lf_bs0 lf_bs1]. apply tsum_ext. intros J _. rewrite HK. f_equal. unfold inc, increment. destruct (prescribed bcs J); [|reflexivity]. destruct x0; [reflexivity|]. cbn. now destruct J. }
    assert (Split : forall I, prescribed bcs I = None -> (forall J g, prescribed bcs J = Some g -> y J = mul alpha (sub g (at0 zero x0 J))) ->
              tsum n (fun J => mul (K I J) (y J)) = add (tsum n (fun J => mul (dense zero A2 I J) (y J))) (tsum n (fun J => mul (K I J) (inc J)))).
    { intros I HI Hy. rewrite <- (tsum_plus zero add r0l rcomm rassoc). apply tsum_ext. intros J _. rewrite (R2 I J HI), CP. unfold inc, increment. destruct (prescribed bcs J) as [g|] eqn:Eg; [rewrite (Hy J g Eg)|]; ring. }
    split.
    + intro H. assert (Hy : forall I g, prescribed bcs I = Some g -> y I = mul alpha (sub g (at0 zero x0 I))).
      { intros I g Hg. assert (HI : constrained bcs I = true) by now rewrite CP, Hg. rewrite <- (R1 I g Hg), (H I (constrained_lt bcs n I Hbcs HI)), V2, Hg. reflexivity. }
      split; [exact Hy|]. intros I HI Hn. change (tsum n (fun J => mul (K I J) (y J)) = nth I b0 zero). rewrite (Split I Hn Hy), (H I HI), V2, Hn, (B1 I HI). ring.
    + intros (Hy & Hr) I HI. destruct (prescribed bcs I) as [g|] eqn:Eg.
      * rewrite (R1 I g Eg), V2, Eg. now apply Hy.
      * specialize (Hr I HI Eg). change (tsum n (fun J => mul (K I J) (y J)) = nth I b0 zero) in Hr. rewrite V2, Eg, (B1 I HI), <- Hr, (Split I Eg Hy). ring.
Qed.
End Sys.
