(** The nearest point of a tetrahedron. *)
From Coq Require Import Reals Lra Psatz.
From Verif Require Import Base BaseProofs GenerationSpec Gjk GjkSpec GjkHull GjkNearest.
Open Scope R_scope.

Lemma le_false a b : le a b = false <-> b < a.
Proof. unfold le. destruct (Rle_dec a b); split; intro; (reflexivity || discriminate || lra). Qed.

(** ** The volume coordinates of the origin *)
Lemma det4_origin a b c e w0 w1 w2 w3 : det4 a b c e = (w0, w1, w2, w3) -> forall g, w3 * inner a g + w2 * inner b g + w1 * inner c g + w0 * inner e g = 0.
Proof. unfold det4. cbv zeta. intro E. injection E as <- <- <- <-. intro g. unfold inner. ring. Qed.
Lemma combination_zero s l : (forall g, inner (combination s l) g = 0) -> combination s l = mkV 0 0 0.
Proof. intro H. apply norm2_zero. apply H. Qed.
Lemma det4_nonzero a b c e w0 w1 w2 w3 : det4 a b c e = (w0, w1, w2, w3) -> independent [a; b; c; e] -> w0 + w1 + w2 + w3 <> 0.
Proof.
  intros E Hi Z.
  assert (Habc : independent [a; b; c]) by exact (face_independent 3 [a; b; c; e] ltac:(cbn; lia) Hi).
  pose proof (indep3 a b c Habc) as HW. rewrite ev_sum in HW. set (u := minus b a) in *. set (v := minus c a) in *. set (w := minus e a).
  set (n := mkV (vy u * vz v - vz u * vy v) (vz u * vx v - vx u * vz v) (vx u * vy v - vy u * vx v)).
  assert (Nn : norm2 n = norm2 u * norm2 v - inner u v * inner u v) by (unfold n, norm2, inner; cbn [vx vy vz]; ring).
  assert (Nw : inner n w = 0).
  { assert (G : inner n w = w0 + w1 + w2 + w3); [|lra]. unfold det4 in E. cbv zeta in E. injection E as <- <- <- <-.
    unfold n, w, u, v, inner, minus. cbn [vx vy vz]. ring. }
  set (al := vx w * (vy v * vz n - vz v * vy n) + vy w * (vz v * vx n - vx v * vz n) + vz w * (vx v * vy n - vy v * vx n)).
  set (be := vx w * (vy n * vz u - vz n * vy u) + vy w * (vz n * vx u - vx n * vz u) + vz w * (vx n * vy u - vy n * vx u)).
  assert (Q : forall k, norm2 n = k -> vx w * k = al * vx u + be * vx v + inner n w * vx n /\ vy w * k = al * vy u + be * vy v + inner n w * vy n /\ vz w * k = al * vz u + be * vz v + inner n w * vz n).
  { intros k <-. unfold al, be, norm2, inner, n. cbn [vx vy vz]. split; [ring|split; ring]. }
  destruct (Q _ eq_refl) as (Q1 & Q2 & Q3). rewrite Nw in Q1, Q2, Q3.
  assert (N0 : norm2 n = 0); [|lra].
  apply (Hi [al + be - norm2 n; - al; - be; norm2 n]); [reflexivity|cbn; ring| |cbn; auto].
  clear - Q1 Q2 Q3. revert Q1 Q2 Q3. generalize (norm2 n), al, be. intros k x y Q1 Q2 Q3. unfold w, u, v, minus in Q1, Q2, Q3. cbn [vx vy vz] in Q1, Q2, Q3.
  unfold combination, comb. cbn. f_equal; lra.
Qed.

(** ** The tests in terms of products *)
Section Tests.
Variable diag : nat -> R.
Variable s : nat -> vec.
Hypothesis Hdiag : forall i, diag i <= 0.
Lemma out_iff i : (i < 4)%nat -> (out diag s i = true <-> forall j, (j < 4)%nat -> gd (s i) (s j) <= 0).
Proof.
  intro Hi. unfold out. rewrite forallb_forall. split.
  - intros H j Hj. destruct (Nat.eq_dec i j) as [<-|N]; [rewrite gd_self; lra|]. specialize (H j ltac:(apply in_seq; lia)). unfold d in H. destruct (Nat.eqb_spec i j); [contradiction|].
    apply negb_true_iff, lt_false in H. exact H.
  - intros H j Hj. apply in_seq in Hj. apply negb_true_iff, lt_false. unfold d. destruct (Nat.eqb i j); [apply Hdiag|]. apply (H j). lia.
Qed.
Lemma edge_test p q j : (j < 4)%nat -> forall x y, In j [p; q; x; y] -> ev (s p) (s q) (s x) <= 0 -> ev (s p) (s q) (s y) <= 0 -> ev (s p) (s q) (s j) <= 0.
Proof. intros _ x y [<-|[<-|[<-|[<-|[]]]]] H1 H2; rewrite ?ev_a, ?ev_b; lra. Qed.
Lemma v_ev i : (i < 6)%nat -> v diag s i 0 = ev (s (fst (edge i))) (s (snd (edge i))) (s (fst (edge (5 - i)))) /\ v diag s i 1 = ev (s (fst (edge i))) (s (snd (edge i))) (s (snd (edge (5 - i)))).
Proof. intro Hi. do 6 (destruct i as [|i]; [split; reflexivity|]). lia. Qed.
Lemma d_gd i : (i < 6)%nat -> d diag s (fst (edge i)) (snd (edge i)) = gd (s (fst (edge i))) (s (snd (edge i))) /\ d diag s (snd (edge i)) (fst (edge i)) = gd (s (snd (edge i))) (s (fst (edge i))).
Proof. intro Hi. do 6 (destruct i as [|i]; [split; reflexivity|]). lia. Qed.
Lemma opposite i j : (i < 6)%nat -> (j < 4)%nat -> In j [fst (edge i); snd (edge i); fst (edge (5 - i)); snd (edge (5 - i))] /\ (fst (edge (5 - i)) < 4)%nat /\ (snd (edge (5 - i)) < 4)%nat.
Proof. intros Hi Hj. do 6 (destruct i as [|i]; [cbn; lia|]). lia. Qed.
Lemma on_edge_iff i p q : (i < 6)%nat -> edge i = (p, q) -> (on_edge diag s i = true <-> 0 <= gd (s p) (s q) /\ 0 <= gd (s q) (s p) /\ forall j, (j < 4)%nat -> ev (s p) (s q) (s j) <= 0).
Proof.
  intros Hi E. destruct (v_ev i Hi) as (V0 & V1). destruct (d_gd i Hi) as (D0 & D1). pose proof (fun j => opposite i j Hi) as O. unfold on_edge. rewrite E in *. cbn [fst snd] in *.
  rewrite V0, V1, D0, D1, !andb_true_iff, !le_spec. split.
  - intros (((H1 & H2) & H3) & H4). split; [exact H3|split; [exact H4|]]. intros j Hj. apply (edge_test p q j Hj _ _ (proj1 (O j Hj)) H1 H2).
  - intros (H3 & H4 & H). destruct (O 0%nat ltac:(lia)) as (_ & O1 & O2). split; [split; [split; apply H; assumption|exact H3]|exact H4].
Qed.
End Tests.

(** ** Facets *)
Lemma facet_ok s l p q r : independent [p; q; r] -> length l = length s -> (forall x, In x l -> 0 <= x) -> rsum l = 1 -> let W := ev q r p + ev p r q + ev p q r in
  (forall g, inner (combination s l) g = ev q r p / W * inner p g + ev p r q / W * inner q g + ev p q r / W * inner r g) ->
  (forall e, In e s -> In e [p; q; r] \/ exists ws we, 0 < ws /\ we < 0 /\ forall x, inner x p = norm2 x -> inner x q = norm2 x -> inner x r = norm2 x -> ws * norm2 x + we * (inner x e - norm2 x) = 0) ->
  nearest_ok s (Some l).
Proof.
  intros Hi L P S W Hx He. destruct (facet_foot p q r (combination s l) Hi Hx) as (E1 & E2 & E3). apply weights_intro; try assumption. intros e Hin.
  destruct (He e Hin) as [[<-|[<-|[<-|[]]]]|(ws & we & Hw & Hn & H)]; try lra. specialize (H _ E1 E2 E3). pose proof (norm2_nonneg (combination s l)). nra.
Qed.

Ltac facet F T := rewrite !andb_true_iff, !lt_spec in T; let T1 := fresh in let T2 := fresh in let T3 := fresh in let T4 := fresh in destruct T as (((T1 & T2) & T3) & T4);
    let D := fresh in pose proof (indep3 _ _ _ F) as D; rewrite quotient_some by lra; cbn [obind];
    match type of D with 0 < ?W => assert (0 < 1 / W) by (apply pos_div; lra) end;
    eapply (facet_ok _ _ _ _ _ F); [reflexivity|weights; apply Rmult_le_pos; lra|cbn; field; lra|intro; rewrite inner_c4; field; lra|].
Section Nearest4.
Variable diag : nat -> R.
Hypothesis Hdiag : forall i, diag i <= 0.
Variables a b c e : vec.
Let s := fun i => nth i [a; b; c; e] zero_vec.
Hypothesis Hi : independent [a; b; c; e].
Lemma tet_in x : In x [a; b; c; e] -> exists j, (j < 4)%nat /\ x = s j.
Proof. intros [<-|[<-|[<-|[<-|[]]]]]; [exists 0%nat|exists 1%nat|exists 2%nat|exists 3%nat]; split; (lia || reflexivity). Qed.
Lemma in_tet j : (j < 4)%nat -> In (s j) [a; b; c; e].
Proof. intro H. apply nth_In. exact H. Qed.
Lemma tet_edges : independent [a; b] /\ independent [a; c] /\ independent [a; e] /\ independent [b; c] /\ independent [b; e] /\ independent [c; e].
Proof.
  assert (F3 : independent [a; b; c]) by exact (face_independent 3 [a; b; c; e] ltac:(cbn; lia) Hi).
  assert (F0 : independent [b; c; e]) by exact (face_independent 0 [a; b; c; e] ltac:(cbn; lia) Hi).
  assert (F1 : independent [a; c; e]) by exact (face_independent 1 [a; b; c; e] ltac:(cbn; lia) Hi).
  split; [exact (face_independent 2 [a; b; c] ltac:(cbn; lia) F3)|]. split; [exact (face_independent 1 [a; b; c] ltac:(cbn; lia) F3)|]. split; [exact (face_independent 1 [a; c; e] ltac:(cbn; lia) F1)|].
  split; [exact (face_independent 0 [a; b; c] ltac:(cbn; lia) F3)|]. split; [exact (face_independent 1 [b; c; e] ltac:(cbn; lia) F0)|]. exact (face_independent 0 [b; c; e] ltac:(cbn; lia) F0).
Qed.
Lemma edge_indep i p q : (i < 6)%nat -> edge i = (p, q) -> independent [s p; s q].
Proof.
  destruct tet_edges as (H1 & H2 & H3 & H4 & H5 & H6). intro Hl. do 6 (destruct i as [|i]; [intro E; injection E as <- <-; cbn; assumption|]). lia.
Qed.
Lemma unit_weights i : (i < 4)%nat -> let l := map (unit_at i 1) (seq 0 4) in
  (forall x, In x l -> 0 <= x) /\ rsum l = 1 /\ combination [a; b; c; e] l = s i.
Proof.
  intro H. do 4 (destruct i as [|i]; [cbn; split; [weights|split; [ring|apply vec_ext; cbn; ring]]|]). lia.
Qed.
Lemma edge_weights i p q x y : (i < 6)%nat -> edge i = (p, q) -> 0 <= x -> 0 <= y -> x + y = 1 -> let l := map (fun j => unit_at p x j + unit_at q y j) (seq 0 4) in
  (forall z, In z l -> 0 <= z) /\ rsum l = 1 /\ forall g, inner (combination [a; b; c; e] l) g = x * inner (s p) g + y * inner (s q) g.
Proof.
  intros H E Hx Hy Hs. do 6 (destruct i as [|i]; [injection E as <- <-; cbn [seq map unit_at Nat.eqb]; split; [weights|split; [cbn; lra|intro g; rewrite inner_c4; cbn; ring]]|]). lia.
Qed.
Lemma vert_test m i : (i < 4)%nat -> m = s i -> (forall x, In x [a; b; c; e] -> norm2 m <= inner m x) -> find (out diag s) (seq 0 4) = None -> False.
Proof.
  intros Hl -> K N. pose proof (find_none _ _ N i ltac:(apply in_seq; lia)) as F. rewrite (proj2 (out_iff diag s Hdiag i Hl)) in F; [discriminate|].
  intros j Hj. specialize (K _ (in_tet j Hj)). unfold gd. unfold norm2 in K. lra.
Qed.
Lemma edge_find m i p q u w : (i < 6)%nat -> edge i = (p, q) -> (forall g, inner m g = u * inner (s p) g + w * inner (s q) g) -> u + w = 1 -> 0 <= u -> 0 <= w ->
  inner m (s p) = norm2 m -> inner m (s q) = norm2 m -> (forall x, In x [a; b; c; e] -> norm2 m <= inner m x) -> find (on_edge diag s) (seq 0 6) = None -> False.
Proof.
  intros Hl E Hg Hs Hu Hw E1 E2 K N. assert (I := edge_indep i p q Hl E). pose proof (indep2 _ _ I) as D. destruct (edge_between _ _ u w I Hs) as (U1 & U2); [rewrite <- !Hg; congruence|].
  pose proof (find_none _ _ N i ltac:(apply in_seq; lia)) as F. rewrite (proj2 (on_edge_iff diag s i p q Hl E)) in F; [discriminate|].
  assert (P : forall x, 0 <= x / (gd (s p) (s q) + gd (s q) (s p)) -> 0 <= x).
  { intros x Hx. replace x with (x / (gd (s p) (s q) + gd (s q) (s p)) * (gd (s p) (s q) + gd (s q) (s p))) by (field; lra). apply Rmult_le_pos; lra. }
  split; [apply P; rewrite <- U2; exact Hw|]. split; [apply P; rewrite <- U1; exact Hu|]. intros j Hj. specialize (K _ (in_tet j Hj)).
  pose proof (edge_foot (s p) (s q) m (s j) I) as G. cbv zeta in G. rewrite <- U1, <- U2 in G. specialize (G Hg).
  assert (0 <= - ev (s p) (s q) (s j)); [|lra]. apply P. unfold Rdiv in *. lra.
Qed.
(** The closest point in the interior of a facet whose test fails is the origin. *)
Lemma facet_find m p q r t ws wt : independent [p; q; r] -> forall x y z, x + y + z = 1 -> 0 < x -> 0 < y -> 0 < z -> (forall g, inner m g = x * inner p g + y * inner q g + z * inner r g) ->
  inner m p = norm2 m -> inner m q = norm2 m -> inner m r = norm2 m -> norm2 m <= inner m t -> 0 < ws -> ws * norm2 m + wt * (inner m t - norm2 m) = 0 ->
  lt wt 0 && lt 0 (ev q r p) && lt 0 (ev p r q) && lt 0 (ev p q r) = false -> norm2 m = 0.
Proof.
  intros I x y z Hs Hx Hy Hz Hg E1 E2 E3 K Hw Hid T. pose proof (indep3 p q r I) as HW.
  destruct (facet_unique p q r x y z Hs) as (U1 & U2 & U3).
  { intros g h Hp Hq. rewrite <- !Hg. destruct Hp as [<-|[<-|[<-|[]]]]; destruct Hq as [<-|[<-|[<-|[]]]]; congruence. }
  cbv zeta in U1, U2, U3. rewrite (proj2 (lt_spec 0 (ev q r p))), (proj2 (lt_spec 0 (ev p r q))), (proj2 (lt_spec 0 (ev p q r))), !andb_true_r in T;
    [|rewrite <- U3; apply Rmult_lt_0_compat; assumption|rewrite <- U2; apply Rmult_lt_0_compat; assumption|rewrite <- U1; apply Rmult_lt_0_compat; assumption].
  apply lt_false in T. pose proof (norm2_nonneg m). assert (0 <= wt * (inner m t - norm2 m)) by (apply Rmult_le_pos; lra). nra.
Qed.

Lemma final_ok w0 w1 w2 w3 : 0 < w0 + w1 + w2 + w3 -> (forall g, w3 * inner a g + w2 * inner b g + w1 * inner c g + w0 * inner e g = 0) ->
  find (out diag s) (seq 0 4) = None -> find (on_edge diag s) (seq 0 6) = None ->
  nearest_ok [a; b; c; e]
    (if lt w0 0 && lt 0 (ev b c a) && lt 0 (ev a c b) && lt 0 (ev a b c) then
        f1 <- quotient 1 (ev b c a + ev a c b + ev a b c) ;; Some [ev b c a * f1; ev a c b * f1; ev a b c * f1; 0]
      else if lt w1 0 && lt 0 (ev b e a) && lt 0 (ev a e b) && lt 0 (ev a b e) then
        f1 <- quotient 1 (ev b e a + ev a e b + ev a b e) ;; Some [ev b e a * f1; ev a e b * f1; 0; ev a b e * f1]
      else if lt w2 0 && lt 0 (ev c e a) && lt 0 (ev a e c) && lt 0 (ev a c e) then
        f1 <- quotient 1 (ev c e a + ev a e c + ev a c e) ;; Some [ev c e a * f1; 0; ev a e c * f1; ev a c e * f1]
      else if lt w3 0 && lt 0 (ev c e b) && lt 0 (ev b e c) && lt 0 (ev b c e) then
        f1 <- quotient 1 (ev c e b + ev b e c + ev b c e) ;; Some [0; ev c e b * f1; ev b e c * f1; ev b c e * f1]
      else omap (fun w => quotient w (w0 + w1 + w2 + w3)) [w3; w2; w1; w0]).
Proof.
  intros Hws Hw N1 N2. set (ws := w0 + w1 + w2 + w3) in *.
  assert (F3 : independent [a; b; c]) by exact (face_independent 3 [a; b; c; e] ltac:(cbn; lia) Hi).
  assert (F0 : independent [b; c; e]) by exact (face_independent 0 [a; b; c; e] ltac:(cbn; lia) Hi).
  assert (F1 : independent [a; c; e]) by exact (face_independent 1 [a; b; c; e] ltac:(cbn; lia) Hi).
  assert (F2 : independent [a; b; e]) by exact (face_independent 2 [a; b; c; e] ltac:(cbn; lia) Hi).
  assert (Hwx : forall x, w3 * inner x a + w2 * inner x b + w1 * inner x c + w0 * inner x e = 0) by (intro x; rewrite (inner_comm x a), (inner_comm x b), (inner_comm x c), (inner_comm x e); apply Hw).
  assert (G0 : forall x, inner x a = norm2 x -> inner x b = norm2 x -> inner x c = norm2 x -> ws * norm2 x + w0 * (inner x e - norm2 x) = 0) by (intros x E1 E2 E3; pose proof (Hwx x); rewrite E1, E2, E3 in H; unfold ws; lra).
  assert (G1 : forall x, inner x a = norm2 x -> inner x b = norm2 x -> inner x e = norm2 x -> ws * norm2 x + w1 * (inner x c - norm2 x) = 0) by (intros x E1 E2 E3; pose proof (Hwx x); rewrite E1, E2, E3 in H; unfold ws; lra).
  assert (G2 : forall x, inner x a = norm2 x -> inner x c = norm2 x -> inner x e = norm2 x -> ws * norm2 x + w2 * (inner x b - norm2 x) = 0) by (intros x E1 E2 E3; pose proof (Hwx x); rewrite E1, E2, E3 in H; unfold ws; lra).
  assert (G3 : forall x, inner x b = norm2 x -> inner x c = norm2 x -> inner x e = norm2 x -> ws * norm2 x + w3 * (inner x a - norm2 x) = 0) by (intros x E1 E2 E3; pose proof (Hwx x); rewrite E1, E2, E3 in H; unfold ws; lra).
  destruct (lt w0 0 && lt 0 (ev b c a) && lt 0 (ev a c b) && lt 0 (ev a b c)) eqn:T0.
  { facet F3 T0. intros x [<-|[<-|[<-|[<-|[]]]]]; try (left; cbn; tauto). right. exists ws, w0. auto. }
  destruct (lt w1 0 && lt 0 (ev b e a) && lt 0 (ev a e b) && lt 0 (ev a b e)) eqn:T1.
  { facet F2 T1. intros x [<-|[<-|[<-|[<-|[]]]]]; try (left; cbn; tauto). right. exists ws, w1. auto. }
  destruct (lt w2 0 && lt 0 (ev c e a) && lt 0 (ev a e c) && lt 0 (ev a c e)) eqn:T2.
  { facet F1 T2. intros x [<-|[<-|[<-|[<-|[]]]]]; try (left; cbn; tauto). right. exists ws, w2. auto. }
  destruct (lt w3 0 && lt 0 (ev c e b) && lt 0 (ev b e c) && lt 0 (ev b c e)) eqn:T3.
  { facet F0 T3. intros x [<-|[<-|[<-|[<-|[]]]]]; try (left; cbn; tauto). right. exists ws, w3. auto. }
  destruct (closest_exists _ Hi ltac:(discriminate)) as (m & Hm). pose proof Hm as ((l & W & ->) & _).
  destruct l as [|la [|lb [|lc [|le [|? ?]]]]]; try (destruct W as (W & _); discriminate W). pose proof (closest_support _ _ W Hm) as Sup. pose proof (proj1 (closest_iff _ _ W) Hm) as K.
  destruct W as (L & P & S). cbn in S. set (m := combination [a; b; c; e] [la; lb; lc; le]) in *.
  assert (Pa : 0 <= la) by (apply P; cbn; auto). assert (Pb : 0 <= lb) by (apply P; cbn; auto). assert (Pc : 0 <= lc) by (apply P; cbn; auto). assert (Pe : 0 <= le) by (apply P; cbn; auto).
  assert (Sa := Sup 0%nat a la eq_refl eq_refl). assert (Sb := Sup 1%nat b lb eq_refl eq_refl). assert (Sc := Sup 2%nat c lc eq_refl eq_refl). assert (Se := Sup 3%nat e le eq_refl eq_refl).
  assert (Ka := K a ltac:(cbn; auto)). assert (Kb := K b ltac:(cbn; auto)). assert (Kc := K c ltac:(cbn; auto)). assert (Ke := K e ltac:(cbn; auto)).
  assert (Im : forall g, inner m g = la * inner a g + lb * inner b g + lc * inner c g + le * inner e g) by (intro g; apply inner_c4).
  assert (Z : norm2 m = 0).
  { destruct (Req_dec la 0) as [Za|Za]; destruct (Req_dec lb 0) as [Zb|Zb]; destruct (Req_dec lc 0) as [Zc|Zc]; destruct (Req_dec le 0) as [Ze|Ze];
      try (assert (Ea : inner m a = norm2 m) by (apply Sa; lra)); try (assert (Eb : inner m b = norm2 m) by (apply Sb; lra));
      try (assert (Ec : inner m c = norm2 m) by (apply Sc; lra)); try (assert (Ee : inner m e = norm2 m) by (apply Se; lra)).
    - exfalso; lra.
    - exfalso. apply (vert_test m 3); try assumption; [lia|]. assert (le = 1) by lra. unfold m. subst la lb lc le. apply vec_ext; cbn; ring.
    - exfalso. apply (vert_test m 2); try assumption; [lia|]. assert (lc = 1) by lra. unfold m. subst la lb lc le. apply vec_ext; cbn; ring.
    - exfalso. apply (edge_find m 0 2 3 lc le); try assumption; try lia; try lra; [reflexivity|]. intro g. rewrite Im, Za, Zb. cbn. ring.
    - exfalso. apply (vert_test m 1); try assumption; [lia|]. assert (lb = 1) by lra. unfold m. subst la lb lc le. apply vec_ext; cbn; ring.
    - exfalso. apply (edge_find m 1 1 3 lb le); try assumption; try lia; try lra; [reflexivity|]. intro g. rewrite Im, Za, Zc. cbn. ring.
    - exfalso. apply (edge_find m 2 1 2 lb lc); try assumption; try lia; try lra; [reflexivity|]. intro g. rewrite Im, Za, Ze. cbn. ring.
    - apply (facet_find m b c e a ws w3 F0 lb lc le); try assumption; try lra; [intro g; rewrite Im, Za; ring|apply G3; assumption].
    - exfalso. apply (vert_test m 0); try assumption; [lia|]. assert (la = 1) by lra. unfold m. subst la lb lc le. apply vec_ext; cbn; ring.
    - exfalso. apply (edge_find m 3 0 3 la le); try assumption; try lia; try lra; [reflexivity|]. intro g. rewrite Im, Zb, Zc. cbn. ring.
    - exfalso. apply (edge_find m 4 0 2 la lc); try assumption; try lia; try lra; [reflexivity|]. intro g. rewrite Im, Zb, Ze. cbn. ring.
    - apply (facet_find m a c e b ws w2 F1 la lc le); try assumption; try lra; [intro g; rewrite Im, Zb; ring|apply G2; assumption].
    - exfalso. apply (edge_find m 5 0 1 la lb); try assumption; try lia; try lra; [reflexivity|]. intro g. rewrite Im, Zc, Ze. cbn. ring.
    - apply (facet_find m a b e c ws w1 F2 la lb le); try assumption; try lra; [intro g; rewrite Im, Zc; ring|apply G1; assumption].
    - apply (facet_find m a b c e ws w0 F3 la lb lc); try assumption; try lra; [intro g; rewrite Im, Ze; ring|apply G0; assumption].
    - pose proof (G0 m Ea Eb Ec) as G. rewrite Ee in G. assert (G' : ws * norm2 m = 0) by lra. apply Rmult_integral in G' as [G'|G']; [lra|exact G']. }
  cbn [omap]. rewrite !quotient_some by lra. cbn [obind]. apply norm2_zero in Z.
  assert (U : forall x, In x [la - w3 / ws; lb - w2 / ws; lc - w1 / ws; le - w0 / ws] -> x = 0).
  { apply Hi; [reflexivity| |].
    - cbn. transitivity (la + lb + lc + le - (w3 + w2 + w1 + w0) / ws); [field; lra|]. replace (w3 + w2 + w1 + w0) with ws by (unfold ws; ring). unfold Rdiv. rewrite Rinv_r by lra. lra.
    - apply combination_zero. intro g. rewrite inner_c4. pose proof (Im g) as E. rewrite Z in E. pose proof (Hw g) as E'. unfold inner at 1 in E. cbn [vx vy vz] in E.
      replace ((la - w3 / ws) * inner a g + (lb - w2 / ws) * inner b g + (lc - w1 / ws) * inner c g + (le - w0 / ws) * inner e g) with
        ((la * inner a g + lb * inner b g + lc * inner c g + le * inner e g) - (w3 * inner a g + w2 * inner b g + w1 * inner c g + w0 * inner e g) / ws) by (field; lra).
      rewrite E', <- E. unfold Rdiv. ring. }
  assert (U1 := U _ (or_introl eq_refl)). assert (U2 := U _ (or_intror (or_introl eq_refl))). assert (U3 := U _ (or_intror (or_intror (or_introl eq_refl)))). assert (U4 := U _ (or_intror (or_intror (or_intror (or_introl eq_refl))))).
  replace (w3 / ws) with la by lra. replace (w2 / ws) with lb by lra. replace (w1 / ws) with lc by lra. replace (w0 / ws) with le by lra.
  exists [la; lb; lc; le]. split; [reflexivity|]. split; [split; [exact L|split; [exact P|cbn; lra]]|exact Hm].
Qed.

Lemma nearest4_ok : nearest_ok [a; b; c; e] (nearest4 diag s).
Proof.
  unfold nearest4. destruct (find (out diag s) (seq 0 4)) as [i|] eqn:N1.
  { apply find_some in N1 as (Hin & Ht). apply in_seq in Hin. assert (Hl : (i < 4)%nat) by lia. destruct (unit_weights i Hl) as (P & S & E). pose proof (proj1 (out_iff diag s Hdiag i Hl) Ht) as H.
    eapply (vertex_ok _ i (s i)); [|reflexivity|exact P|exact S|exact E|].
    - apply nth_error_nth'. exact Hl.
    - intros x Hx. apply tet_in in Hx as (j & Hj & ->). apply H, Hj. }
  destruct (find (on_edge diag s) (seq 0 6)) as [i|] eqn:N2.
  { apply find_some in N2 as (Hin & Ht). apply in_seq in Hin. assert (Hl : (i < 6)%nat) by lia. destruct (edge i) as (p, q) eqn:E. pose proof (edge_indep i p q Hl E) as I. pose proof (indep2 _ _ I) as D.
    destruct (proj1 (on_edge_iff diag s i p q Hl E) Ht) as (H1 & H2 & H3).
    assert (Dpq : d diag s p q = gd (s p) (s q) /\ d diag s q p = gd (s q) (s p)) by (clear - Hl E; do 6 (destruct i as [|i]; [injection E as <- <-; split; reflexivity|]); lia).
    destruct Dpq as (-> & ->). set (DD := gd (s p) (s q) + gd (s q) (s p)) in *. rewrite quotient_some by lra. cbn [obind]. assert (HD : 0 < 1 / DD) by (apply pos_div; lra).
    destruct (edge_weights i p q (1 / DD * gd (s q) (s p)) (1 / DD * gd (s p) (s q)) Hl E) as (P & S & G);
      [apply Rmult_le_pos; lra|apply Rmult_le_pos; lra|unfold DD; field; fold DD; lra|].
    eapply (edge_ok _ (s p) (s q)); [exact I|reflexivity|exact P|exact S| |intros x Hx; apply tet_in in Hx as (j & Hj & ->); apply H3, Hj].
    intro g. rewrite G. fold DD. field. lra. }
  change (s 0%nat) with a. change (s 1%nat) with b. change (s 2%nat) with c. change (s 3%nat) with e. destruct (det4 a b c e) as (((w0, w1), w2), w3) eqn:Ed.
  pose proof (det4_origin _ _ _ _ _ _ _ _ Ed) as Hw. pose proof (det4_nonzero _ _ _ _ _ _ _ _ Ed Hi) as Hn. cbv zeta.
  destruct (lt (w0 + w1 + w2 + w3) 0) eqn:Hs.
  - apply lt_spec in Hs. apply (final_ok (- w0) (- w1) (- w2) (- w3)); [lra|intro g; pose proof (Hw g); lra|exact N1|exact N2].
  - apply lt_false in Hs. apply (final_ok w0 w1 w2 w3); [lra|exact Hw|exact N1|exact N2].
Qed.
End Nearest4.
