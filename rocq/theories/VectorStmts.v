From Coq Require Import Ring Reals QArith Qreduction.
From Verif Require Import Base BaseProofs Algo AlgoProofs World IndexMap IndexMapSpec IndexMapProofs ImSharedProofs
  Scatterer ScattererProofs VectorOps VectorSpec VectorOpsProofs OrthoProofs.
Open Scope nat_scope.

Lemma option_choice {A} (d : A) P (f : nat -> option A) (Q : nat -> A -> Prop) :
  (forall r, r < P -> exists y, f r = Some y /\ Q r y) ->
  exists y, forall r, r < P -> f r = Some (y r) /\ Q r (y r).
Proof.
  intro H. exists (fun r => match f r with Some y => y | None => d end). intros r Hr. destruct (H r Hr) as (y & -> & Hy). auto.
Qed.

Lemma fwd_stmt P maps bs T (dflt : T) x : maps_ok P maps -> full_size P maps bs x ->
  exists y, forall r, r < P ->
    vec_scatter_fwd P maps bs T x r = Some (y r) /\
    length (y r) = length (x r) /\
    (forall i, i < bs * size_local (maps r) -> nth_error (y r) i = nth_error (x r) i) /\
    (forall k g o j, nth_error (im_ghosts (maps r)) k = Some g -> o < P -> owns (maps o) g -> j < bs ->
       nth_error (y r) (bs * (size_local (maps r) + k) + j) = nth_error (x o) (bs * (g - im_lo (maps o)) + j)) /\
    vec_scatter_fwd P maps bs T y r = Some (y r).
Proof.
  intros Hok Hx. destruct (option_choice [] P _ _ (scatter_fwd_ok P maps bs Hok T dflt x Hx)) as (y & Hy). exists y.
  assert (Hy' : full_size P maps bs y). { intros r Hr. rewrite (proj1 (proj2 (Hy r Hr))). now apply Hx. }
  assert (Hgh : forall r, r < P -> forall k g o j, nth_error (im_ghosts (maps r)) k = Some g -> o < P -> owns (maps o) g -> j < bs ->
    exists o', nth_error (im_owners (maps r)) k = Some o' /\ o' = o).
  { intros r Hr k g o j Hg Ho Hw Hj. destruct (nth_error_lt (im_owners (maps r)) k) as (o' & Ho').
    { rewrite (mo_len _ _ Hok) by exact Hr. eapply nth_error_bound; eauto. }
    exists o'. split; [exact Ho'|]. destruct (mo_owner _ _ Hok r k g o' Hr Hg Ho') as (A & _ & B).
    eapply (owner_unique P maps Hok); eauto. }
  intros r Hr. destruct (Hy r Hr) as (E & Hl & Hown & Hg). split; [exact E|]. split; [exact Hl|]. split; [exact Hown|]. split.
  - intros k g o j Hk Ho Hw Hj. destruct (Hgh r Hr k g o j Hk Ho Hw Hj) as (o' & Ho' & ->). now apply Hg.
  - destruct (scatter_fwd_ok P maps bs Hok T dflt y Hy' r Hr) as (z & -> & Hlz & Hownz & Hgz). f_equal.
    apply nth_error_ext. intro i. destruct (Nat.lt_ge_cases i (bs * size_local (maps r))) as [L|L]; [now apply Hownz|].
    destruct (Nat.lt_ge_cases i (length (y r))) as [L'|L'].
    2:{ rewrite !(proj2 (nth_error_None _ _)) by lia. reflexivity. }
    rewrite (Hy' r Hr) in L'. assert (Hbs : bs <> 0) by nia.
    set (u := i - bs * size_local (maps r)). set (k := u / bs). set (j := u mod bs).
    assert (Hj : j < bs) by now apply Nat.mod_upper_bound.
    assert (Hu : u = bs * k + j) by now apply Nat.div_mod.
    assert (Hk : k < num_ghosts (maps r)) by (apply Nat.div_lt_upper_bound; [exact Hbs|nia]).
    replace i with (bs * (size_local (maps r) + k) + j) by nia.
    pose proof (gh_nth maps r k Hk) as Hg1. destruct (nth_error_lt (im_owners (maps r)) k) as (o & Ho).
    { rewrite (mo_len _ _ Hok) by exact Hr. exact Hk. }
    rewrite (Hgz k _ o j Hg1 Ho Hj), (Hg k _ o j Hg1 Ho Hj).
    destruct (mo_owner _ _ Hok r k _ o Hr Hg1 Ho) as (HoP & _ & Hw). unfold owns in Hw.
    apply (Hy o HoP). unfold size_local. nia.
Qed.

Lemma rev_stmt P maps bs T (dflt : T) op x : maps_ok P maps -> full_size P maps bs x ->
  forall r, r < P -> exists y, vec_scatter_rev P maps bs T op x r = Some y /\
    length y = length (x r) /\
    (forall i j, i < size_local (maps r) -> j < bs ->
       nth_error y (bs * i + j)
       = option_map (fold_left op (ghost_copies P maps bs dflt x (im_lo (maps r) + i) j)) (nth_error (x r) (bs * i + j))) /\
    (forall i, bs * size_local (maps r) <= i -> nth_error y i = nth_error (x r) i).
Proof. intros Hok Hx r Hr. exact (scatter_rev_ok P maps bs Hok T dflt x Hx op r Hr). Qed.

Lemma rev_sum_stmt P maps bs T (zero one : T) add mul sub opp x : ring_theory zero one add mul sub opp eq ->
  maps_ok P maps -> full_size P maps bs x ->
  forall r, r < P -> exists y, vec_scatter_rev P maps bs T add x r = Some y /\
    length y = length (x r) /\
    (forall i j v, i < size_local (maps r) -> j < bs -> nth_error (x r) (bs * i + j) = Some v ->
       nth_error y (bs * i + j) = Some (add v (tsum T zero add (ghost_copies P maps bs zero x (im_lo (maps r) + i) j)))) /\
    (forall i, bs * size_local (maps r) <= i -> nth_error y i = nth_error (x r) i).
Proof.
  intros Rth Hok Hx r Hr. destruct (rev_stmt P maps bs T zero add x Hok Hx r Hr) as (y & E & Hl & Ho & Hg).
  exists y. split; [exact E|]. split; [exact Hl|]. split; [|exact Hg].
  intros i j v Hi Hj Hv. rewrite Ho, Hv by assumption. cbn [option_map]. f_equal.
  apply (fold_left_tsum T zero one add mul sub opp Rth).
Qed.

Lemma adjoint_stmt P maps bs T (zero one : T) add mul sub opp (conj : T -> T) x y :
  ring_theory zero one add mul sub opp eq -> maps_ok P maps -> full_size P maps bs x -> full_size P maps bs y ->
  exists fx ry, (forall r, r < P -> vec_scatter_fwd P maps bs T x r = Some (fx r)) /\
    (forall r, r < P -> vec_scatter_rev P maps bs T add y r = Some (ry r)) /\
    total T zero add P (fun r => sdot T zero add mul conj (bs * (size_local (maps r) + num_ghosts (maps r))) (fx r) (y r))
    = total T zero add P (fun r => sdot T zero add mul conj (bs * size_local (maps r)) (x r) (ry r)).
Proof.
  intros Rth Hok Hx Hy. destruct (fwd_stmt P maps bs T zero x Hok Hx) as (fx & Hfx).
  destruct (option_choice [] P _ _ (rev_stmt P maps bs T zero add y Hok Hy)) as (ry & Hry).
  exists fx, ry. assert (A : forall r, r < P -> vec_scatter_fwd P maps bs T x r = Some (fx r)) by (intros; now apply Hfx).
  assert (B : forall r, r < P -> vec_scatter_rev P maps bs T add y r = Some (ry r)) by (intros; now apply Hry).
  split; [exact A|split; [exact B|]].
  exact (adjoint T zero one add mul sub opp Rth P maps bs Hok conj x y Hx Hy fx ry A B).
Qed.

Lemma entry_stmt P T (v : vec T) : maps_ok P (v_map T v) -> sized P v ->
  forall q g j, q < P -> owns (v_map T v q) g -> j < v_bs T v ->
  nth_error (global_vec P v) (v_bs T v * g + j) = nth_error (v_x T v q) (v_bs T v * (g - im_lo (v_map T v q)) + j).
Proof. intros Hok Hs q g j. exact (global_entry T P v q g j Hok Hs). Qed.

Lemma glen_stmt P T (v : vec T) : sized P v ->
  length (global_vec P v) = v_bs T v * lsum (map (fun q => size_local (v_map T v q)) (seq 0 P)).
Proof. intro Hs. exact (global_length T P v P Hs (le_n P)). Qed.

Lemma inner_stmt P T (zero one : T) add mul sub opp conj a b : ring_theory zero one add mul sub opp eq ->
  sized P a -> sized P b -> (forall r, r < P -> local_size T a r = local_size T b r) ->
  inner_product T zero add mul conj P a b = Some (dot T zero add mul conj (global_vec P a) (global_vec P b)).
Proof. intro Rth. exact (inner_ok T zero one add mul sub opp Rth conj P a b). Qed.

Lemma ortho_real_stmt P eps basis res (v0 : vec R) : (0 < eps)%R ->
  orthonormalize R R0 Rplus Rminus Rmult Rdiv (fun x => x) sqrt (Rsmall eps) P basis = Some res ->
  (forall v, In v basis -> alike P v v0) -> sized P v0 ->
  length res = length basis /\
  (forall i j a b, nth_error res i = Some a -> nth_error res j = Some b ->
     inner_product R R0 Rplus Rmult (fun x => x) P a b = Some (if i =? j then R1 else R0)) /\
  (forall k b, nth_error basis k = Some b -> exists cs, length cs = S k /\
     forall p, nth p (global_vec P b) R0 =
       tsum R R0 Rplus (map (fun cv => Rmult (fst cv) (nth p (global_vec P (snd cv)) R0)) (combine cs (firstn (S k) res)))).
Proof.
  intros He E Hal Hs.
  exact (orthonormalize_ok R R0 R1 Rplus Rmult Rminus Ropp Rdiv Rinv RealField.Rfield sqrt (Rsmall eps) P Rdot_sqrt (Rsmall_0 eps He) basis res v0 E Hal Hs).
Qed.

(** ** Complex scalars with rational parts, for the counterexample. *)
Definition CQ := (Q * Q)%type.
Definition cq0 : CQ := (0#1, 0#1)%Q.
Definition cq1 : CQ := (1#1, 0#1)%Q.
Definition cqadd (a b : CQ) : CQ := (Qred (fst a + fst b), Qred (snd a + snd b))%Q.
Definition cqsub (a b : CQ) : CQ := (Qred (fst a - fst b), Qred (snd a - snd b))%Q.
Definition cqmul (a b : CQ) : CQ := (Qred (fst a * fst b - snd a * snd b), Qred (fst a * snd b + snd a * fst b))%Q.
Definition cqconj (a : CQ) : CQ := (fst a, Qred (- snd a))%Q.
Definition cqn2 (a : CQ) : Q := (fst a * fst a + snd a * snd a)%Q.
Definition cqdiv (a b : CQ) : CQ := let p := cqmul a (cqconj b) in (Qred (fst p / cqn2 b), Qred (snd p / cqn2 b))%Q.
(** Square root of a rational square. *)
Definition cqsqrt (a : CQ) : CQ := (Qmake (Z.sqrt (Qnum (fst a))) (Pos.sqrt (Qden (fst a))), 0#1)%Q.
(** The tolerance 2^-52. *)
Definition cqeps : Q := (1 # 4503599627370496)%Q.
Definition cqsmall (a : CQ) : bool := if Qlt_le_dec (fst a) cqeps then true else false.
Definition cqfar (a : CQ) : bool := if Qlt_le_dec cqeps (cqn2 a) then true else false.
Definition cq_map (r : nat) : imap := imap_plain 1 (fun _ => 2) r.
Definition cqvec (a b : CQ) : vec CQ := mkVec CQ cq_map 1 (fun _ => [a; b]).
Definition cq_basis : list (vec CQ) := [cqvec cq1 cq0; cqvec (0#1, 3#2)%Q (4#1, 0#1)%Q].

Definition cq_inner := inner_product CQ cq0 cqadd cqmul cqconj 1.
Definition cq_ortho := orthonormalize CQ cq0 cqadd cqsub cqmul cqdiv cqconj cqsqrt cqsmall 1.
Definition cq_is_ortho := is_orthonormal CQ cq0 cqadd cqsub cqmul cqconj 1 cq1 cqfar.

Lemma cq_refuted :
  exists a b, cq_ortho cq_basis = Some [a; b] /\ cq_inner a b = Some (0#1, 3#5)%Q /\ cq_inner a a = Some cq1 /\ cq_inner b b = Some cq1 /\ cq_is_ortho [a; b] = Some false.
Proof.
  assert (H : match cq_ortho cq_basis with
              | Some [a; b] => (cq_inner a b, cq_inner a a, cq_inner b b, cq_is_ortho [a; b])
              | _ => (None, None, None, None) end
              = (Some (0#1, 3#5)%Q, Some cq1, Some cq1, Some false)) by (vm_compute; reflexivity).
  destruct (cq_ortho cq_basis) as [[|a [|b [|? ?]]]|]; try discriminate H.
  exists a, b. injection H as H1 H2 H3 H4. split; [reflexivity|]. split; [exact H1|]. split; [exact H2|]. split; [exact H3|exact H4].
Qed.

Section IsOrtho.
Variables (T : Type) (zero : T) (add sub mul : T -> T -> T) (conj : T -> T) (P : nat) (one : T) (far : T -> bool).
Notation inner := (inner_product T zero add mul conj P).

Lemma is_orthonormal_stmt basis :
  is_orthonormal T zero add sub mul conj P one far basis = Some true <->
  forall i j a b, i <= j -> nth_error basis i = Some a -> nth_error basis j = Some b ->
    exists d, inner a b = Some d /\ far (sub (if i =? j then one else zero) d) = false.
Proof.
  induction basis as [|v t IH].
  - split; [|reflexivity]. intros _ i j a b _ Ha. destruct i; discriminate.
  - cbn [is_orthonormal]. split.
    + destruct (inner v v) as [d|] eqn:Ed; [|discriminate]. cbn [obind]. destruct (far (sub one d)) eqn:Ef; [discriminate|].
      destruct (omap (fun bj => inner v bj) t) as [ds|] eqn:Eds; [|discriminate]. cbn [obind].
      destruct (existsb _ ds) eqn:Ex; [discriminate|]. intro H. intros i j a b Hij Ha Hb.
      destruct i as [|i].
      * cbn in Ha. injection Ha as <-. destruct j as [|j]; cbn in Hb.
        -- injection Hb as <-. exists d. split; [exact Ed|exact Ef].
        -- destruct (omap_nth _ _ _ Eds j b Hb) as (dj & Hn & Hdj). exists dj. split; [exact Hdj|].
           change (0 =? S j) with false. cbv iota. destruct (far (sub zero dj)) eqn:E; [|reflexivity]. assert (existsb (fun d => far (sub zero d)) ds = true); [|congruence].
           apply existsb_exists. exists dj. split; [eapply nth_error_In; eauto|exact E].
      * destruct j as [|j]; [lia|]. cbn in Ha, Hb. destruct (proj1 IH H i j a b ltac:(lia) Ha Hb) as (dd & H1 & H2). eauto.
    + intro H. destruct (H 0 0 v v (le_n 0) eq_refl eq_refl) as (d & -> & Hd). cbn [obind Nat.eqb] in *. rewrite Hd.
      destruct (omap (fun bj => inner v bj) t) as [ds|] eqn:Eds.
      * cbn [obind]. destruct (existsb _ ds) eqn:Ex.
        -- apply existsb_exists in Ex as (dj & Hin & Hf). apply In_nth_error in Hin as (j & Hj).
           destruct (nth_error_lt t j) as (b & Hb); [rewrite <- (omap_length _ _ _ Eds); eapply nth_error_bound; eauto|].
           destruct (omap_nth _ _ _ Eds j b Hb) as (dj' & Hj' & Hi). rewrite Hj in Hj'. injection Hj' as <-.
           destruct (H 0 (S j) v b ltac:(lia) eq_refl Hb) as (d' & Hd' & Hff). cbn [Nat.eqb] in Hff. congruence.
        -- apply IH. intros i j a b Hij Ha Hb. destruct (H (S i) (S j) a b ltac:(lia) Ha Hb) as (dd & H1 & H2). eauto.
      * exfalso. revert Eds.
        assert (Hall : forall b, In b t -> exists d, inner v b = Some d).
        { intros b Hb. apply In_nth_error in Hb as (j & Hj). destruct (H 0 (S j) v b ltac:(lia) eq_refl Hj) as (dd & H1 & _). eauto. }
        clear -Hall. induction t as [|b t IHt]; [discriminate|]. cbn [omap]. destruct (Hall b (or_introl eq_refl)) as (d & ->).
        cbn [obind]. destruct (omap (fun bj => inner v bj) t); [discriminate|]. intros _. apply IHt; [|reflexivity]. intros; apply Hall; now right.
Qed.
End IsOrtho.
