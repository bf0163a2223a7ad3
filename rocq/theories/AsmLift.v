(** Lifting: what [apply_lifting] subtracts from a vector. *)
From Coq Require Import Ring.
From Verif Require Import Base BaseProofs StackProofs Algo AlgoProofs MatrixCSR DirichletBC BcProofs Assemble AssembleSpec AsmBlocks AsmSums AsmVector AsmMatrix AssembleBC.
Open Scope nat_scope.

Section Lift.
Context {T U : Type}.
Variables (zero one : T) (add mul sub : T -> T -> T) (opp : T -> T).
Hypothesis Rth : ring_theory zero one add mul sub opp eq.
Add Ring R : Rth.
Lemma r0l a : add zero a = a. Proof. ring. Qed.
Lemma rcomm a b : add a b = add b a. Proof. ring. Qed.
Lemma rassoc a b c : add a (add b c) = add (add a b) c. Proof. ring. Qed.
Notation sum := (sum zero add).
Notation tsum := (tsum zero add).
Notation bsum := (bsum zero add).

Lemma sum_mul_r {A} (f : A -> T) l w : mul (sum (map f l)) w = sum (map (fun a => mul (f a) w) l).
Proof. induction l as [|a l IH]; cbn [map]; [cbn; ring|]. rewrite !sum_cons, <- IH. ring. Qed.
Lemma sum_opp {A} (f : A -> T) l : opp (sum (map f l)) = sum (map (fun a => opp (f a)) l).
Proof. induction l as [|a l IH]; cbn [map]; [cbn; ring|]. rewrite !sum_cons, <- IH. ring. Qed.
Lemma tsum_mul_r n f w : mul (tsum n f) w = tsum n (fun a => mul (f a) w).
Proof. apply sum_mul_r. Qed.
Lemma tsum_opp n f : opp (tsum n f) = tsum n (fun a => opp (f a)).
Proof. apply sum_opp. Qed.

(** The sum over the columns of a block. *)
Lemma mshare_cols bs0 bs1 bl q N (w : nat -> T) : 0 < bs1 -> (forall c, In c (snd (fst bl)) -> bs1 * c + bs1 <= N) ->
  bsum bs0 bs1 (fun I J v => if I =? q then mul v (w J) else zero) bl = tsum N (fun J => mul (mshare zero add bs0 bs1 bl q J) (w J)).
Proof.
  intros Hbs Hc. destruct bl as [[rows cols] f]. cbn [fst snd] in Hc. unfold mshare, AssembleSpec.bsum. symmetry.
  erewrite tsum_ext by (intros J _; rewrite tsum_mul_r; apply tsum_ext; intros a _; apply tsum_mul_r). rewrite (tsum_swap zero add r0l rcomm rassoc). apply tsum_ext. intros a _. rewrite (tsum_swap zero add r0l rcomm rassoc). apply tsum_ext. intros b Hb.
  assert (Ht : target bs1 cols b < N). { destruct (split_block bs1 (length cols) b ltac:(lia)) as (i & k & Hk & Hi & ->). rewrite target_block by exact Hk. pose proof (Hc (nth i cols 0) ltac:(now apply nth_In)). lia. }
  rewrite (tsum_one zero add r0l rcomm rassoc N _ (target bs1 cols b) Ht).
  - rewrite Nat.eqb_refl, Bool.andb_true_r. destruct (target bs0 rows a =? q); [reflexivity|ring].
  - intros J _ N'. destruct (Nat.eqb_spec (target bs1 cols b) J); [congruence|]. rewrite Bool.andb_false_r. ring.
Qed.
Lemma mat_cols bs0 bs1 bls q N (w : nat -> T) : 0 < bs1 -> (forall bl c, In bl bls -> In c (snd (fst bl)) -> bs1 * c + bs1 <= N) ->
  sum (map (fun bl => bsum bs0 bs1 (fun I J v => if I =? q then mul v (w J) else zero) bl) bls) = tsum N (fun J => mul (mat_sum zero add bs0 bs1 bls q J) (w J)).
Proof.
  intros Hbs Hc. unfold mat_sum. symmetry. erewrite tsum_ext by (intros J _; apply sum_mul_r). unfold AssembleSpec.tsum. rewrite (sum_sum zero add r0l rcomm rassoc). apply sum_ext. intros bl Hbl. symmetry. apply (mshare_cols bs0 bs1 bl q N w Hbs). intros c Hcc. now apply (Hc bl).
Qed.

Section One.
Variables (n bs0 bs1 : nat) (alpha : T) (values : list T) (markers : list bool) (x0 : list T).
Hypothesis Hbs0 : 0 < bs0.
Hypothesis Hbs1 : 0 < bs1.
Hypothesis Hval : length values = length markers.
Hypothesis Hx0 : x0 = [] \/ length markers <= length x0.
(** The prescribed increment in column [J], zero where nothing is prescribed. *)
Definition incr (J : nat) : T := if marked markers J then mul alpha (sub (nth J values zero) (nth J x0 zero)) else zero.
Definition lval (I J : nat) (v : T) (q : nat) : T := if I =? q then opp (mul v (incr J)) else zero.

Lemma lifting_adds rows cols Ae : (forall r, In r rows -> bs0 * r + bs0 <= n) -> (forall c, In c cols -> bs1 * c + bs1 <= length markers) -> length Ae = bs0 * length rows * (bs1 * length cols) ->
  vadds zero add n (fun b => lifting_fn zero mul sub bs0 bs1 alpha values markers x0 b rows cols Ae)
    (fun q => bsum bs0 bs1 (fun I J v => lval I J v q) (rows, cols, fun a b => nth (a * (bs1 * length cols) + b) Ae zero)).
Proof.
  intros Hr Hc HA. unfold lifting_fn. set (nc := length cols * bs1).
  set (E := fun (i c k j r m q : nat) => if bs0 * r + m =? q then opp (mul (nth ((j * bs0 + m) * nc + (i * bs1 + k)) Ae zero) (incr (c * bs1 + k))) else zero).
  set (G := fun q => sum (map (fun p => (fun i c => tsum bs1 (fun k => sum (map (fun p => (fun j r => tsum bs0 (fun m => E i c k j r m q)) (fst p) (snd p)) (enum rows)))) (fst p) (snd p)) (enum cols))).
  apply (adds_eq add _ _ _ (ofold (fun b p => ofold (fun b k =>
    let ii := snd p * bs1 + k in
    m <- nth_error markers ii ;;
    if (m : bool) then
      x_bc <- nth_error values ii ;;
      x0i <- match x0 with [] => Some zero | _ => nth_error x0 ii end ;;
      ofold (fun b p' => ofold (fun b m =>
        v <- nth_error Ae ((fst p' * bs0 + m) * nc + (fst p * bs1 + k)) ;;
        apply_op (fun y w => sub y w) b (snd p' * bs0 + m) (mul (mul v alpha) (sub x_bc x0i))) (seq 0 bs0) b) (enum rows) b
    else Some b) (seq 0 bs1) b) (enum cols)) _ G).
  - unfold G. apply (adds_ofold zero add r0l rcomm rassoc). intros [i c] Hin. cbn [fst snd]. apply in_enum_nth in Hin. pose proof (nth_error_bound _ _ _ Hin) as Hi. apply nth_error_In in Hin. specialize (Hc c Hin).
    unfold AssembleSpec.tsum at 1. apply (adds_ofold zero add r0l rcomm rassoc _ _ _ _ (fun k q => sum (map (fun p => (fun j r => tsum bs0 (fun m => E i c k j r m q)) (fst p) (snd p)) (enum rows)))). intros k Hk. apply in_seq in Hk. cbv zeta.
    assert (Hii : c * bs1 + k < length markers) by lia. rewrite (nth_error_nth' markers false Hii). cbn [obind]. fold (marked markers (c * bs1 + k)). destruct (marked markers (c * bs1 + k)) eqn:Em.
    + rewrite (nth_error_nth' values zero) by lia. cbn [obind].
      assert (Ex : match x0 with [] => Some zero | _ => nth_error x0 (c * bs1 + k) end = Some (nth (c * bs1 + k) x0 zero)).
      { destruct x0 as [|y x0']; [now destruct (c * bs1 + k)|]. apply nth_error_nth'. destruct Hx0; [discriminate|]. lia. }
      rewrite Ex. cbn [obind]. apply (adds_ofold zero add r0l rcomm rassoc). intros [j r] Hjr. cbn [fst snd]. apply in_enum_nth in Hjr. pose proof (nth_error_bound _ _ _ Hjr) as Hj. apply nth_error_In in Hjr. specialize (Hr r Hjr).
      unfold AssembleSpec.tsum. apply (adds_ofold zero add r0l rcomm rassoc _ _ _ _ (fun m q => E i c k j r m q)). intros m Hm. apply in_seq in Hm.
      assert (Hx : (j * bs0 + m) * nc + (i * bs1 + k) < length Ae).
      { rewrite HA. replace (bs1 * length cols) with nc by (unfold nc; lia). assert (H1 : i * bs1 + k < nc) by (unfold nc; nia). assert (H2 : j * bs0 + m + 1 <= bs0 * length rows) by nia. assert ((j * bs0 + m + 1) * nc <= bs0 * length rows * nc) by (now apply Nat.mul_le_mono_r). nia. }
      rewrite (nth_error_nth' Ae zero Hx). cbn [obind]. unfold E. rewrite (Nat.mul_comm bs0 r). apply (vadds_op zero add r0l rcomm n); [|lia]. intro y. unfold incr. rewrite Em. ring.
    + apply (adds_eq add _ _ _ Some _ (fun _ => zero)); [apply (adds_id zero add r0l rcomm)|reflexivity|]. intros q _. apply (sum_zero zero add r0l). intros [j r] _. cbn [fst snd]. apply (tsum_zero zero add r0l). intros m _. unfold E, incr. rewrite Em. destruct (_ =? q); [ring|reflexivity].
  - intros b _. apply ofold_ext. intros s [i c] _. apply ofold_ext. intros s' k _. cbn [fst snd]. destruct (nth_error markers (c * bs1 + k)) as [[|]|]; cbn [obind]; try reflexivity. destruct (nth_error values (c * bs1 + k)) as [v|]; cbn [obind]; [|reflexivity]. destruct (match x0 with [] => _ | _ => _ end) as [v0|]; cbn [obind]; [|reflexivity].
    apply ofold_ext. intros s'' [j r] _. reflexivity.
  - intros q _. unfold G. rewrite (sum_enum zero add cols 0 (fun i c => tsum bs1 (fun k => sum (map (fun p => (fun j r => tsum bs0 (fun m => E i c k j r m q)) (fst p) (snd p)) (enum rows))))).
    unfold AssembleSpec.bsum. rewrite (tsum_swap zero add r0l rcomm rassoc), (tsum_mul zero add r0l rcomm rassoc). apply tsum_ext. intros i Hi. apply tsum_ext. intros k Hk.
    rewrite (sum_enum zero add rows 0 (fun j r => tsum bs0 (fun m => E i (nth i cols 0) k j r m q))), (tsum_mul zero add r0l rcomm rassoc). apply tsum_ext. intros j Hj. apply tsum_ext. intros m Hm. unfold lval, E. rewrite !target_block by assumption.
    rewrite (Nat.mul_comm (nth i cols 0)), (Nat.mul_comm j bs0), (Nat.mul_comm i bs1). unfold nc. rewrite (Nat.mul_comm (length cols)). reflexivity.
Qed.
Lemma lift_bc_ok x constants cf (a : @form T U) types bls b :
  (forall ct, In ct types -> type_sizes bs0 bs1 ct) -> kernels_ok a -> form_ok a (length types) ->
  form_mb zero a types x constants cf = Some bls ->
  (forall bl r, In bl bls -> In r (fst (fst bl)) -> bs0 * r + bs0 <= n) -> (forall bl c, In bl bls -> In c (snd (fst bl)) -> bs1 * c + bs1 <= length markers) ->
  (fm_int a <> [] -> bs1 <= length markers) -> length b = n ->
  exists b', lift_bc zero mul sub bs0 bs1 a types x constants cf values markers x0 alpha b = Some b' /\ length b' = n /\
    forall q, q < n -> nth q b' zero = sub (nth q b zero) (tsum (length markers) (fun J => mul (mat_sum zero add bs0 bs1 bls q J) (incr J))).
Proof.
  intros Hct HK HF E Hr Hc H0 Hb.
  destruct (assemble_matrix_ok (U := U) zero add r0l rcomm rassoc (fun b : list T => length b = n) (fun b q => nth q b zero) (fun q => q < n) (lifting_fn zero mul sub bs0 bs1 alpha values markers x0) true bs0 bs1 [] markers lval (fun r => bs0 * r + bs0 <= n) (fun c => bs1 * c + bs1 <= length markers) (fun _ _ => True)) with (x := x) (constants := constants) (cf := cf) (a := a) (types := types) (bls := bls) (s := b) as (b' & Eb & Lb & Vb).
  - exact Hbs0.
  - exact Hbs1.
  - intros _ I J v q HJ. unfold lval, incr. rewrite HJ. destruct (I =? q); [ring|reflexivity].
  - intros rows cols A (K1 & K2 & _) HA. now apply lifting_adds.
  - intros d _ Hn. now contradiction Hn.
  - intros d Hd _. exact Hd.
  - exact Hct.
  - exact HK.
  - exact HF.
  - intro Hi. split; [intro Hn; now contradiction Hn|]. intros _. rewrite Nat.mul_0_r. now apply H0.
  - exact E.
  - intros bl Hbl. split; [intros r Hrr; now apply (Hr bl)|]. split; [intros c Hcc; now apply (Hc bl)|auto].
  - exact Hb.
  - exists b'. split; [exact Eb|]. split; [exact Lb|]. intros q Hq. rewrite (Vb q Hq). rewrite <- (mat_cols bs0 bs1 bls q (length markers) incr Hbs1 Hc).
    assert (Es : shares zero add (gshare zero add true bs0 bs1 [] markers lval) bls q = opp (sum (map (fun bl => bsum bs0 bs1 (fun I J v => if I =? q then mul v (incr J) else zero) bl) bls))).
    { rewrite sum_opp. unfold shares. apply sum_ext. intros [[rows cols] f] _. unfold gshare, AssembleSpec.bsum. rewrite tsum_opp. apply tsum_ext. intros i _. rewrite tsum_opp. apply tsum_ext. intros j _. unfold mval, lval. destruct (_ =? q); [reflexivity|ring]. }
    rewrite Es. ring.
Qed.
End One.
End Lift.
