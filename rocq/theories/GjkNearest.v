(** The three cases of the nearest point search. *)
From Coq Require Import Reals Lra Psatz.
From Verif Require Import Base BaseProofs GenerationSpec Gjk GjkSpec GjkHull.
Open Scope R_scope.

Definition gd (a b : vec) : R := inner a a - inner a b.
Definition ev (a b c : vec) : R := gd b c * gd a b - gd a b * gd b a + gd b a * gd a c.
Lemma dot_inner a b : dot3 a b = inner a b.
Proof. reflexivity. Qed.
Lemma lt_spec a b : lt a b = true <-> a < b.
Proof. unfold lt. destruct (Rlt_dec a b); split; intro; (assumption || reflexivity || discriminate || contradiction). Qed.
Lemma lt_false a b : lt a b = false <-> b <= a.
Proof. unfold lt. destruct (Rlt_dec a b); split; intro; (reflexivity || discriminate || lra). Qed.
Lemma le_spec a b : le a b = true <-> a <= b.
Proof. unfold le. destruct (Rle_dec a b); split; intro; (assumption || reflexivity || discriminate || contradiction). Qed.
Lemma quotient_some a b : b <> 0 -> quotient a b = Some (a / b).
Proof. intro H. unfold quotient. destruct (Req_EM_T b 0); [contradiction|reflexivity]. Qed.

Lemma inner_c1 a x e : inner (combination [a] [x]) e = x * inner a e.
Proof. unfold combination, comb, inner. cbn. ring. Qed.
Lemma inner_c2 a b x y e : inner (combination [a; b] [x; y]) e = x * inner a e + y * inner b e.
Proof. unfold combination, comb, inner. cbn. ring. Qed.
Lemma inner_c3 a b c x y z e : inner (combination [a; b; c] [x; y; z]) e = x * inner a e + y * inner b e + z * inner c e.
Proof. unfold combination, comb, inner. cbn. ring. Qed.
Lemma inner_c4 a b c g x y z w e : inner (combination [a; b; c; g] [x; y; z; w]) e = x * inner a e + y * inner b e + z * inner c e + w * inner g e.
Proof. unfold combination, comb, inner. cbn. ring. Qed.

(** ** Independent points *)
Lemma gd_sum a b : gd a b + gd b a = norm2 (minus a b).
Proof. unfold gd, norm2, inner, minus. cbn. ring. Qed.
Lemma indep2 a b : independent [a; b] -> 0 < gd a b + gd b a.
Proof.
  intro H. rewrite gd_sum. destruct (Req_dec (norm2 (minus a b)) 0) as [E|E]; [|pose proof (norm2_nonneg (minus a b)); lra]. exfalso.
  apply norm2_zero, minus_zero in E. subst b. assert (1 = 0); [|lra]. apply (H [1; -1]); [reflexivity|cbn; ring| |left; reflexivity]. apply vec_ext; cbn; ring.
Qed.
Lemma ev_sum a b c : ev b c a + ev a c b + ev a b c = norm2 (minus b a) * norm2 (minus c a) - inner (minus b a) (minus c a) * inner (minus b a) (minus c a).
Proof. unfold ev, gd, norm2, inner, minus. cbn. ring. Qed.
Lemma indep3 a b c : independent [a; b; c] -> 0 < ev b c a + ev a c b + ev a b c.
Proof.
  intro H. rewrite ev_sum. set (u := minus b a). set (v := minus c a).
  assert (Hv : norm2 v <> 0).
  { intro E. apply norm2_zero, minus_zero in E. subst c. assert (1 = 0); [|lra]. apply (H [1; 0; -1]); [reflexivity|cbn; ring| |left; reflexivity]. apply vec_ext; cbn; ring. }
  assert (Pv : 0 < norm2 v) by (pose proof (norm2_nonneg v); lra).
  set (w := mkV (norm2 v * vx u - inner u v * vx v) (norm2 v * vy u - inner u v * vy v) (norm2 v * vz u - inner u v * vz v)).
  assert (Q : norm2 w = norm2 v * (norm2 u * norm2 v - inner u v * inner u v)) by (unfold w, norm2, inner; cbn [vx vy vz]; ring).
  pose proof (norm2_nonneg w) as N. destruct (Req_dec (norm2 w) 0) as [E|E].
  - exfalso. apply Hv. apply norm2_zero in E. apply (H [inner u v - norm2 v; norm2 v; - inner u v]); [reflexivity|cbn; ring| |right; left; reflexivity].
    assert (E' : combination [a; b; c] [inner u v - norm2 v; norm2 v; - inner u v] = w).
    { apply vec_ext; unfold combination, comb; cbn [combine map fst snd rsum fold_right vx vy vz]; unfold w; cbn [vx vy vz]; generalize (norm2 v), (inner u v); intros n k; unfold u, v, minus; cbn [vx vy vz]; ring. }
    rewrite E'. exact E.
  - assert (0 < norm2 w) by lra. rewrite Q in H0. apply Rmult_lt_reg_l with (norm2 v); [exact Pv|lra].
Qed.

(** ** Points on an edge *)
Lemma edge_foot a b x e : independent [a; b] -> let D := gd a b + gd b a in
  (forall g, inner x g = gd b a / D * inner a g + gd a b / D * inner b g) -> norm2 x - inner x e = ev a b e / D.
Proof.
  intros Hi D Hx. assert (HD : 0 < D) by (apply indep2, Hi). unfold norm2. rewrite (Hx x), (Hx e), (inner_comm a x), (inner_comm b x), (Hx a), (Hx b).
  apply Rmult_eq_reg_r with (D * D); [|nra].
  replace ((gd b a / D * (gd b a / D * inner a a + gd a b / D * inner b a) + gd a b / D * (gd b a / D * inner a b + gd a b / D * inner b b) - (gd b a / D * inner a e + gd a b / D * inner b e)) * (D * D))
    with (gd b a * (gd b a * inner a a + gd a b * inner b a) + gd a b * (gd b a * inner a b + gd a b * inner b b) - D * (gd b a * inner a e + gd a b * inner b e)) by (field; lra).
  replace (ev a b e / D * (D * D)) with (ev a b e * D) by (field; lra). unfold ev, D, gd. rewrite (inner_comm b a). ring.
Qed.
(** ** Points on a triangle *)
Lemma facet_unique a b c la lb lc : la + lb + lc = 1 -> (forall p q, In p [a; b; c] -> In q [a; b; c] -> la * inner a p + lb * inner b p + lc * inner c p = la * inner a q + lb * inner b q + lc * inner c q) ->
  let W := ev b c a + ev a c b + ev a b c in la * W = ev b c a /\ lb * W = ev a c b /\ lc * W = ev a b c.
Proof.
  intros Hs He W. pose proof (He a b ltac:(left; reflexivity) ltac:(right; left; reflexivity)) as E1. pose proof (He a c ltac:(left; reflexivity) ltac:(right; right; left; reflexivity)) as E2.
  revert E1 E2. unfold W, ev, gd. rewrite (inner_comm b a), (inner_comm c a), (inner_comm c b).
  generalize (inner a a), (inner b b), (inner c c), (inner a b), (inner a c), (inner b c). intros aa bb cc ab ac bc E1 E2.
  assert (lc = 1 - la - lb) by lra. subst lc. clear He.
  set (r1 := la * (aa - ab) + lb * (ab - bb) + (1 - la - lb) * (ac - bc)). set (r2 := la * (aa - ac) + lb * (ab - bc) + (1 - la - lb) * (ac - cc)).
  assert (R1 : r1 = 0) by (unfold r1; lra). assert (R2 : r2 = 0) by (unfold r2; lra). clear E1 E2.
  split; [|split].
  - match goal with |- ?x = ?y => assert (E : x - y = (ab - bc - (ac - cc)) * r1 - (ab - bb - (ac - bc)) * r2) by (unfold r1, r2; ring) end. rewrite R1, R2 in E. lra.
  - match goal with |- ?x = ?y => assert (E : x - y = (ac - cc - (aa - ac)) * r1 - (ac - bc - (aa - ab)) * r2) by (unfold r1, r2; ring) end. rewrite R1, R2 in E. lra.
  - match goal with |- ?x = ?y => assert (E : x - y = (aa - ac - (ab - bc)) * r1 - (aa - ab - (ab - bb)) * r2) by (unfold r1, r2; ring) end. rewrite R1, R2 in E. lra.
Qed.
Lemma facet_foot a b c x : independent [a; b; c] -> let W := ev b c a + ev a c b + ev a b c in
  (forall g, inner x g = ev b c a / W * inner a g + ev a c b / W * inner b g + ev a b c / W * inner c g) -> inner x a = norm2 x /\ inner x b = norm2 x /\ inner x c = norm2 x.
Proof.
  intros Hi W Hx. assert (HW : 0 < W) by (apply indep3, Hi).
  assert (Eab : W * (inner x a - inner x b) = 0).
  { rewrite !Hx. replace (W * (ev b c a / W * inner a a + ev a c b / W * inner b a + ev a b c / W * inner c a - (ev b c a / W * inner a b + ev a c b / W * inner b b + ev a b c / W * inner c b)))
      with (ev b c a * inner a a + ev a c b * inner b a + ev a b c * inner c a - (ev b c a * inner a b + ev a c b * inner b b + ev a b c * inner c b)) by (field; lra).
    unfold ev, gd. rewrite (inner_comm b a), (inner_comm c a), (inner_comm c b). ring. }
  assert (Eac : W * (inner x a - inner x c) = 0).
  { rewrite !Hx. replace (W * (ev b c a / W * inner a a + ev a c b / W * inner b a + ev a b c / W * inner c a - (ev b c a / W * inner a c + ev a c b / W * inner b c + ev a b c / W * inner c c)))
      with (ev b c a * inner a a + ev a c b * inner b a + ev a b c * inner c a - (ev b c a * inner a c + ev a c b * inner b c + ev a b c * inner c c)) by (field; lra).
    unfold ev, gd. rewrite (inner_comm b a), (inner_comm c a), (inner_comm c b). ring. }
  assert (E1 : inner x b = inner x a) by nra. assert (E2 : inner x c = inner x a) by nra.
  assert (N : norm2 x = inner x a).
  { unfold norm2. rewrite (Hx x), (inner_comm a x), (inner_comm b x), (inner_comm c x), E1, E2.
    replace (ev b c a / W * inner x a + ev a c b / W * inner x a + ev a b c / W * inner x a) with ((ev b c a + ev a c b + ev a b c) / W * inner x a) by (field; lra). fold W. field. lra. }
  split; [lra|split; lra].
Qed.

(** ** Intervals *)
Definition nearest_ok (s : list vec) (r : option (list R)) : Prop := exists l, r = Some l /\ simplex_weights (length s) l /\ closest (hull s) (combination s l).
Lemma weights_intro s l : length l = length s -> (forall a, In a l -> 0 <= a) -> rsum l = 1 -> (forall a, In a s -> norm2 (combination s l) <= inner (combination s l) a) -> nearest_ok s (Some l).
Proof.
  intros L P S K. assert (W : simplex_weights (length s) l) by (split; [exact L|split; assumption]). exists l. split; [reflexivity|]. split; [exact W|]. apply closest_iff; assumption.
Qed.
Ltac weights := let h := fresh "H" in intros ? h; cbn [In] in h; repeat (destruct h as [<-|h]; [try lra|]); try contradiction.
Lemma nearest2_ok a b : independent [a; b] -> nearest_ok [a; b] (nearest2 a b).
Proof.
  intro Hi. unfold nearest2. cbv zeta. change dot3 with inner. rewrite (inner_comm b a). pose proof (indep2 a b Hi) as HD.
  destruct (lt (inner a a - inner a b) 0) eqn:E1; [|destruct (lt (inner b b - inner a b) 0) eqn:E2].
  - apply lt_spec in E1. apply weights_intro; [reflexivity|weights|cbn; ring|]. assert (E : combination [a; b] [1; 0] = a) by (apply vec_ext; cbn; ring). rewrite E.
    unfold norm2. weights.
  - apply lt_spec in E2. apply weights_intro; [reflexivity|weights|cbn; ring|]. assert (E : combination [a; b] [0; 1] = b) by (apply vec_ext; cbn; ring). rewrite E.
    unfold norm2. weights. rewrite (inner_comm b a). lra.
  - apply lt_false in E1, E2. assert (Ga : inner a a - inner a b = gd a b) by reflexivity. assert (Gb : inner b b - inner a b = gd b a) by (unfold gd; rewrite (inner_comm b a); ring).
    rewrite Ga, Gb in *. rewrite quotient_some by lra. cbn [obind]. set (D := gd a b + gd b a) in *.
    assert (P : 0 < / D) by (apply Rinv_0_lt_compat; exact HD). unfold Rdiv. rewrite Rmult_1_l. apply weights_intro; [reflexivity|weights| |].
    + apply Rmult_le_pos; lra.
    + apply Rmult_le_pos; lra.
    + cbn. rewrite Rplus_0_r. rewrite <- Rmult_plus_distr_r. replace (gd b a + gd a b) with D by (unfold D; ring). field. lra.
    + intros e He. assert (G := edge_foot a b (combination [a; b] [gd b a * / D; gd a b * / D]) e Hi). cbv zeta in G. fold D in G. specialize (G ltac:(intro g; rewrite inner_c2; reflexivity)).
      assert (Z : ev a b e = 0) by (destruct He as [<-|[<-|[]]]; unfold ev, gd; ring). rewrite Z in G. unfold Rdiv in G. rewrite Rmult_0_l in G. lra.
Qed.
Lemma edge_ok s a b l : independent [a; b] -> length l = length s -> (forall x, In x l -> 0 <= x) -> rsum l = 1 -> let D := gd a b + gd b a in
  (forall g, inner (combination s l) g = gd b a / D * inner a g + gd a b / D * inner b g) -> (forall e, In e s -> ev a b e <= 0) -> nearest_ok s (Some l).
Proof.
  intros Hi L P S D Hx He. apply weights_intro; try assumption. intros e Hin. pose proof (edge_foot a b (combination s l) e Hi Hx) as G. cbv zeta in G. fold D in G.
  assert (HD : 0 < D) by (apply indep2, Hi). assert (ev a b e / D <= 0); [|lra]. specialize (He e Hin). unfold Rdiv. assert (0 < / D) by (apply Rinv_0_lt_compat; exact HD). nra.
Qed.
Lemma ev_a a b : ev a b a = 0.
Proof. unfold ev, gd. ring. Qed.
Lemma ev_b a b : ev a b b = 0.
Proof. unfold ev, gd. ring. Qed.
Lemma ev_comm a b c : ev a b c = ev b a c.
Proof. unfold ev. ring. Qed.

(** ** Triangles *)
Lemma nearest3_gd a b c : nearest3 a b c =
  if lt (gd a b) 0 && lt (gd a c) 0 then Some [1; 0; 0] else if lt (gd b a) 0 && lt (gd b c) 0 then Some [0; 1; 0] else if lt (gd c a) 0 && lt (gd c b) 0 then Some [0; 0; 1]
  else if lt (ev a b c) 0 && lt 0 (gd a b) && lt 0 (gd b a) then f1 <- quotient 1 (gd a b + gd b a) ;; Some [gd b a * f1; gd a b * f1; 0]
  else if lt (ev a c b) 0 && lt 0 (gd a c) && lt 0 (gd c a) then f1 <- quotient 1 (gd a c + gd c a) ;; Some [gd c a * f1; 0; gd a c * f1]
  else if lt (ev b c a) 0 && lt 0 (gd b c) && lt 0 (gd c b) then f1 <- quotient 1 (gd b c + gd c b) ;; Some [0; gd c b * f1; gd b c * f1]
  else f1 <- quotient 1 (ev b c a + ev a c b + ev a b c) ;; Some [ev b c a * f1; ev a c b * f1; ev a b c * f1].
Proof.
  unfold nearest3. cbv zeta. change dot3 with inner.
  assert (G : forall x y, inner y y - inner x y = gd y x) by (intros; unfold gd; rewrite (inner_comm y x); reflexivity). rewrite !G.
  assert (G' : forall x y, inner x x - inner x y = gd x y) by reflexivity. rewrite !G'.
  replace (gd b c * gd a b - gd a b * gd b a + gd b a * gd a c) with (ev a b c) by (unfold ev; ring).
  replace (gd a b * gd c a - gd c a * gd a c + gd a c * gd c b) with (ev a c b) by (unfold ev; ring).
  replace (gd b a * gd c b - gd c b * gd b c + gd b c * gd c a) with (ev b c a) by (unfold ev; ring). reflexivity.
Qed.
Lemma vertex_ok s i a l : nth_error s i = Some a -> length l = length s -> (forall x, In x l -> 0 <= x) -> rsum l = 1 -> combination s l = a -> (forall e, In e s -> gd a e <= 0) -> nearest_ok s (Some l).
Proof.
  intros Hi L P S E H. apply weights_intro; try assumption. intros e He. rewrite E. specialize (H e He). unfold gd in H. unfold norm2. lra.
Qed.
(** The foot of the perpendicular to the line through two vertices lies between them. *)
Lemma edge_between a b la lb : independent [a; b] -> la + lb = 1 -> la * inner a a + lb * inner b a = la * inner a b + lb * inner b b ->
  let D := gd a b + gd b a in la = gd b a / D /\ lb = gd a b / D.
Proof.
  intros Hi S E D. assert (HD : 0 < D) by (apply indep2, Hi).
  assert (E1 : la * D = gd b a) by (unfold D, gd; rewrite (inner_comm b a) in *; assert (lb = 1 - la) by lra; subst lb; lra).
  assert (E2 : lb * D = gd a b) by (unfold D in *; assert (lb = 1 - la) by lra; subst lb; lra).
  split; [rewrite <- E1|rewrite <- E2]; field; lra.
Qed.
Lemma div_pos x D : 0 < D -> 0 < x / D -> 0 < x.
Proof. intros H1 H2. replace x with (x / D * D) by (field; lra). apply Rmult_lt_0_compat; assumption. Qed.
Lemma pos_div x D : 0 < D -> 0 < x -> 0 < x / D.
Proof. intros H1 H2. apply Rdiv_lt_0_compat; assumption. Qed.
Lemma gd_self a : gd a a = 0.
Proof. unfold gd. ring. Qed.

Lemma nearest3_ok a b c : independent [a; b; c] -> no_foot [a; b; c] -> nearest_ok [a; b; c] (nearest3 a b c).
Proof.
  intros Hi Hn. rewrite nearest3_gd.
  assert (Iab : independent [a; b]) by exact (face_independent 2 [a; b; c] ltac:(cbn; lia) Hi).
  assert (Iac : independent [a; c]) by exact (face_independent 1 [a; b; c] ltac:(cbn; lia) Hi).
  assert (Ibc : independent [b; c]) by exact (face_independent 0 [a; b; c] ltac:(cbn; lia) Hi).
  pose proof (indep2 _ _ Iab) as Dab. pose proof (indep2 _ _ Iac) as Dac. pose proof (indep2 _ _ Ibc) as Dbc. pose proof (indep3 _ _ _ Hi) as DW.
  assert (NT : forall x y, In x [a; b; c] -> In y [a; b; c] -> 0 < gd x y + gd y x -> gd x y <> 0).
  { intros x y Hx Hy HD E. assert (Ne : x <> y) by (intros ->; rewrite gd_self in HD; lra). apply (Hn x y Hx Hy Ne). unfold gd in E. lra. }
  assert (Nab := NT a b ltac:(cbn; auto) ltac:(cbn; auto) Dab). assert (Nba := NT b a ltac:(cbn; auto) ltac:(cbn; auto) ltac:(lra)).
  assert (Nac := NT a c ltac:(cbn; auto) ltac:(cbn; auto) Dac). assert (Nca := NT c a ltac:(cbn; auto) ltac:(cbn; auto) ltac:(lra)).
  assert (Nbc := NT b c ltac:(cbn; auto) ltac:(cbn; auto) Dbc). assert (Ncb := NT c b ltac:(cbn; auto) ltac:(cbn; auto) ltac:(lra)). clear NT.
  destruct (lt (gd a b) 0 && lt (gd a c) 0) eqn:T1.
  { apply andb_true_iff in T1 as (T1 & T2). apply lt_spec in T1, T2. apply (vertex_ok _ 0 a); [reflexivity|reflexivity|weights|cbn; ring|apply vec_ext; cbn; ring|]. weights. rewrite gd_self. lra. }
  destruct (lt (gd b a) 0 && lt (gd b c) 0) eqn:T2.
  { apply andb_true_iff in T2 as (T2 & T3). apply lt_spec in T2, T3. apply (vertex_ok _ 1 b); [reflexivity|reflexivity|weights|cbn; ring|apply vec_ext; cbn; ring|]. weights. rewrite gd_self. lra. }
  destruct (lt (gd c a) 0 && lt (gd c b) 0) eqn:T3.
  { apply andb_true_iff in T3 as (T3 & T4). apply lt_spec in T3, T4. apply (vertex_ok _ 2 c); [reflexivity|reflexivity|weights|cbn; ring|apply vec_ext; cbn; ring|]. weights. rewrite gd_self. lra. }
  destruct (lt (ev a b c) 0 && lt 0 (gd a b) && lt 0 (gd b a)) eqn:T4.
  { apply andb_true_iff in T4 as (T4 & T6). apply andb_true_iff in T4 as (T4 & T5). apply lt_spec in T4, T5, T6. rewrite quotient_some by lra. cbn [obind].
    set (D := gd a b + gd b a) in *. assert (0 < 1 / D) by (apply pos_div; lra).
    apply (edge_ok _ a b); [exact Iab|reflexivity|weights; apply Rmult_le_pos; lra|cbn; unfold D; field; fold D; lra| |weights; rewrite ?ev_a, ?ev_b; lra].
    intro g. rewrite inner_c3. fold D. field. lra. }
  destruct (lt (ev a c b) 0 && lt 0 (gd a c) && lt 0 (gd c a)) eqn:T5.
  { apply andb_true_iff in T5 as (T5 & T7). apply andb_true_iff in T5 as (T5 & T6). apply lt_spec in T5, T6, T7. rewrite quotient_some by lra. cbn [obind].
    set (D := gd a c + gd c a) in *. assert (0 < 1 / D) by (apply pos_div; lra).
    apply (edge_ok _ a c); [exact Iac|reflexivity|weights; apply Rmult_le_pos; lra|cbn; unfold D; field; fold D; lra| |weights; rewrite ?ev_a, ?ev_b; lra].
    intro g. rewrite inner_c3. fold D. field. lra. }
  destruct (lt (ev b c a) 0 && lt 0 (gd b c) && lt 0 (gd c b)) eqn:T6.
  { apply andb_true_iff in T6 as (T6 & T8). apply andb_true_iff in T6 as (T6 & T7). apply lt_spec in T6, T7, T8. rewrite quotient_some by lra. cbn [obind].
    set (D := gd b c + gd c b) in *. assert (0 < 1 / D) by (apply pos_div; lra).
    apply (edge_ok _ b c); [exact Ibc|reflexivity|weights; apply Rmult_le_pos; lra|cbn; unfold D; field; fold D; lra| |weights; rewrite ?ev_a, ?ev_b; lra].
    intro g. rewrite inner_c3. fold D. field. lra. }
  (* the foot of the perpendicular to the plane *)
  destruct (closest_exists _ Hi ltac:(discriminate)) as (m & Hm). pose proof Hm as ((l & W & ->) & _).
  destruct l as [|la [|lb [|lc [|? ?]]]]; try (destruct W as (W & _); discriminate W). pose proof (closest_support _ _ W Hm) as Sup. pose proof (proj1 (closest_iff _ _ W) Hm) as K.
  destruct W as (L & P & S). cbn in S. set (m := combination [a; b; c] [la; lb; lc]) in *.
  assert (Pa : 0 <= la) by (apply P; cbn; auto). assert (Pb : 0 <= lb) by (apply P; cbn; auto). assert (Pc : 0 <= lc) by (apply P; cbn; auto).
  assert (Sa := Sup 0%nat a la eq_refl eq_refl). assert (Sb := Sup 1%nat b lb eq_refl eq_refl). assert (Sc := Sup 2%nat c lc eq_refl eq_refl).
  assert (Ka := K a ltac:(cbn; auto)). assert (Kb := K b ltac:(cbn; auto)). assert (Kc := K c ltac:(cbn; auto)).
  assert (Im : forall g, inner m g = la * inner a g + lb * inner b g + lc * inner c g) by (intro g; apply inner_c3).
  assert (Vtx : forall v p q, m = v -> norm2 m <= inner m p -> norm2 m <= inner m q -> gd v p <> 0 -> gd v q <> 0 -> lt (gd v p) 0 && lt (gd v q) 0 = true).
  { intros v p q -> K1 K2 N1 N2. apply andb_true_iff. split; apply lt_spec; unfold norm2 in K1, K2; unfold gd in *; lra. }
  assert (Edg : forall p q r u w, independent [p; q] -> (forall g, inner m g = u * inner p g + w * inner q g) -> u + w = 1 -> 0 < u -> 0 < w -> inner m p = norm2 m -> inner m q = norm2 m ->
    norm2 m <= inner m r -> lt (ev p q r) 0 && lt 0 (gd p q) && lt 0 (gd q p) = false -> inner m r = norm2 m).
  { intros p q r u w I Hg Hs Hu Hw E1 E2 Hr T. pose proof (indep2 p q I) as D. destruct (edge_between p q u w I Hs) as (U1 & U2); [rewrite <- !Hg; congruence|].
    assert (G1 : 0 < gd q p) by (apply (div_pos _ _ D); rewrite <- U1; exact Hu). assert (G2 : 0 < gd p q) by (apply (div_pos _ _ D); rewrite <- U2; exact Hw).
    pose proof (edge_foot p q m r I) as F. cbv zeta in F. rewrite <- U1, <- U2 in F. specialize (F Hg).
    assert (T' : lt (ev p q r) 0 = false) by (rewrite (proj2 (lt_spec 0 (gd p q)) G2), (proj2 (lt_spec 0 (gd q p)) G1), !andb_true_r in T; exact T). apply lt_false in T'.
    assert (0 <= ev p q r / (gd p q + gd q p)) by (unfold Rdiv; apply Rmult_le_pos; [exact T'|apply Rlt_le, Rinv_0_lt_compat, D]). lra. }
  assert (All : inner m a = norm2 m /\ inner m b = norm2 m /\ inner m c = norm2 m).
  { destruct (Req_dec la 0) as [Za|Za]; destruct (Req_dec lb 0) as [Zb|Zb]; destruct (Req_dec lc 0) as [Zc|Zc].
    - exfalso; lra.
    - exfalso. rewrite (Vtx c a b) in T3; try assumption; [discriminate|]. assert (lc = 1) by lra. unfold m. subst la lb lc. apply vec_ext; cbn; ring.
    - exfalso. rewrite (Vtx b a c) in T2; try assumption; [discriminate|]. assert (lb = 1) by lra. unfold m. subst la lb lc. apply vec_ext; cbn; ring.
    - assert (Eb : inner m b = norm2 m) by (apply Sb; lra). assert (Ec : inner m c = norm2 m) by (apply Sc; lra). split; [|split; assumption].
      apply (Edg b c a lb lc Ibc); try assumption; try lra. intro g. rewrite Im, Za. ring.
    - exfalso. rewrite (Vtx a b c) in T1; try assumption; [discriminate|]. assert (la = 1) by lra. unfold m. subst la lb lc. apply vec_ext; cbn; ring.
    - assert (Ea : inner m a = norm2 m) by (apply Sa; lra). assert (Ec : inner m c = norm2 m) by (apply Sc; lra). split; [assumption|split; [|assumption]].
      apply (Edg a c b la lc Iac); try assumption; try lra. intro g. rewrite Im, Zb. ring.
    - assert (Ea : inner m a = norm2 m) by (apply Sa; lra). assert (Eb : inner m b = norm2 m) by (apply Sb; lra). split; [assumption|split; [assumption|]].
      apply (Edg a b c la lb Iab); try assumption; try lra. intro g. rewrite Im, Zc. ring.
    - split; [apply Sa; lra|split; [apply Sb; lra|apply Sc; lra]]. }
  destruct All as (Ea & Eb & Ec). destruct (facet_unique a b c la lb lc ltac:(lra)) as (U1 & U2 & U3).
  { intros p q Hp Hq. rewrite <- !Im. destruct Hp as [<-|[<-|[<-|[]]]]; destruct Hq as [<-|[<-|[<-|[]]]]; congruence. }
  cbv zeta in U1, U2, U3. set (WW := ev b c a + ev a c b + ev a b c) in *. rewrite quotient_some by lra. cbn [obind]. rewrite <- U1, <- U2, <- U3.
  replace (la * WW * (1 / WW)) with la by (field; lra). replace (lb * WW * (1 / WW)) with lb by (field; lra). replace (lc * WW * (1 / WW)) with lc by (field; lra).
  exists [la; lb; lc]. split; [reflexivity|]. split; [split; [exact L|split; [exact P|cbn; lra]]|exact Hm].
Qed.
