(** Cases in which the closest point is missed, and cases that meet the conditions. *)
From Coq Require Import Reals Lra Psatz.
From Verif Require Import Base BaseProofs GenerationSpec Gjk GjkSpec GjkHull GjkNearest GjkTet GjkLoop.
Open Scope R_scope.

Lemma support_unique eps P Q x y : P <> [] -> Q <> [] -> In y (corners P Q) -> (forall z, In z (corners P Q) -> z <> y -> inner x y < inner x z) -> support_point eps P Q x = Some y.
Proof.
  intros HP HQ Hy H. destruct (support_point_ok eps P Q x HP HQ) as (z & -> & Hz & Hmin). f_equal.
  destruct (Req_dec (vx z) (vx y)) as [E1|E1]; [destruct (Req_dec (vy z) (vy y)) as [E2|E2]; [destruct (Req_dec (vz z) (vz y)) as [E3|E3]; [apply vec_ext; assumption|]|]|];
    exfalso; (assert (N : z <> y) by (intros ->; congruence)); pose proof (H z Hz N); pose proof (Hmin y Hy); lra.
Qed.
Ltac val := unfold norm2, dot3, inner, minus; cbn; lra.
Ltac test t b := let H := fresh in assert (H : t = b) by (first [apply lt_spec|apply lt_false|apply le_spec|apply le_false]; val); rewrite H; clear H.

(** ** A vertex that is the foot of a perpendicular *)
Definition pa := mkV 1 2 0.
Definition pb := mkV 2 (-2) 0.
Definition pc := mkV 1 0 0.
Definition pd := mkV (24 / 17) (6 / 17) 0.
Definition o := mkV 0 0 0.
Lemma minus_o a : minus a o = a.
Proof. apply vec_ext; cbn; ring. Qed.
Lemma same_false a b : vx a <> vx b \/ vy a <> vy b \/ vz a <> vz b -> same a b = false.
Proof.
  intro H. unfold same. destruct (Req_EM_T (vx a) (vx b)); [|reflexivity]. destruct (Req_EM_T (vy a) (vy b)); [|reflexivity]. destruct (Req_EM_T (vz a) (vz b)); [|reflexivity]. exfalso. tauto.
Qed.
Lemma tie_run diag eps : 0 < eps <= 1 / 4 -> compute_distance_gjk diag eps [pa; pb; pc] [o] = Distance (mkV 3 0 0).
Proof.
  intro He. assert (C : corners [pa; pb; pc] [o] = [pa; pb; pc]) by (change (corners [pa; pb; pc] [o]) with [minus pa o; minus pb o; minus pc o]; rewrite !minus_o; reflexivity).
  unfold compute_distance_gjk. rewrite minus_o. set (k := 13%nat). change 15%nat with (S (S k)). cbn [iterate]. cbv zeta.
  rewrite (support_unique eps [pa; pb; pc] [o] pa pb); [|discriminate|discriminate|rewrite C; cbn; auto|rewrite C; intros z [<-|[<-|[<-|[]]]] N; try contradiction; val].
  cbn [existsb]. rewrite same_false by (left; cbn; lra). cbn [orb]. test (lt (dot3 pa pa - dot3 pa pb) (eps * dot3 pa pa)) false. test (lt (dot3 pa pa - dot3 pa pb) eps) false. cbn [orb app nearest].
  assert (N2 : nearest2 pa pb = Some [10 / 17; 7 / 17]).
  { unfold nearest2. cbv zeta. test (lt (dot3 pa pa - dot3 pa pb) 0) false. test (lt (dot3 pb pb - dot3 pb pa) 0) false.
    rewrite quotient_some by val. cbn [obind]. unfold dot3. cbn [vx vy vz pa pb]. f_equal. f_equal; [field|f_equal; field]. }
  rewrite N2. assert (R2 : reduce [pa; pb] [10 / 17; 7 / 17] = (mkV (24 / 17) (6 / 17) 0, [pa; pb])).
  { rewrite reduce_ok by weights. unfold kept. cbn [combine filter snd]. test (lt 0 (10 / 17)) true. test (lt 0 (7 / 17)) true. cbn [map fst]. f_equal. apply vec_ext; cbn; field. }
  rewrite R2. change (mkV (24 / 17) (6 / 17) 0) with pd.
  assert (Sq : dot3 pd pd = 36 / 17) by (unfold dot3; cbn; field). rewrite Sq. test (le (dot3 pa pa) (36 / 17)) false.
  assert (T : lt (36 / 17) (eps * eps) = false) by (apply lt_false; nra). rewrite T.
  rewrite (support_unique eps [pa; pb; pc] [o] pd pc); [|discriminate|discriminate|rewrite C; cbn; auto|rewrite C; intros z [<-|[<-|[<-|[]]]] N; try contradiction; val].
  cbn [existsb]. rewrite !same_false by (cbn; lra). cbn [orb].
  assert (Sp : dot3 pd pc = 24 / 17) by (unfold dot3; cbn; field). rewrite Sp. test (lt (36 / 17 - 24 / 17) (eps * (36 / 17))) false. test (lt (36 / 17 - 24 / 17) eps) false. cbn [orb app nearest].
  assert (N3 : nearest3 pa pb pc = Some [-1; -1; 3]).
  { unfold nearest3. cbv zeta.
    assert (E1 : dot3 pa pa = 5) by val. assert (E2 : dot3 pb pb = 8) by val. assert (E3 : dot3 pc pc = 1) by val.
    assert (E4 : dot3 pa pb = -2) by val. assert (E5 : dot3 pa pc = 1) by val. assert (E6 : dot3 pb pc = 2) by val. rewrite E1, E2, E3, E4, E5, E6.
    test (lt (5 - -2) 0) false. cbn [andb]. test (lt (8 - -2) 0) false. cbn [andb]. test (lt (1 - 1) 0) false. cbn [andb].
    test (lt ((8 - 2) * (5 - -2) - (5 - -2) * (8 - -2) + (8 - -2) * (5 - 1)) 0) false. cbn [andb].
    test (lt 0 (1 - 1)) false. rewrite andb_false_r. test (lt 0 (1 - 2)) false. rewrite andb_false_r. rewrite quotient_some by lra. cbn [obind]. f_equal. f_equal; [field|f_equal; [field|f_equal; field]]. }
  rewrite N3. assert (R3 : reduce [pa; pb; pc] [-1; -1; 3] = (mkV 3 0 0, [pc])).
  { unfold reduce. cbn [combine fold_left snd fst]. test (lt 0 (-1)) false. test (lt 0 3) true. cbn [app]. f_equal. apply vec_ext; cbn; ring. }
  rewrite R3. assert (T3 : le (36 / 17) (dot3 (mkV 3 0 0) (mkV 3 0 0)) = true) by (apply le_spec; val). rewrite T3. reflexivity.
Qed.
Lemma tie_missed : difference [pa; pb; pc] [o] pc /\ norm2 pc = 1 /\ norm2 (mkV 3 0 0) = 9 /\ ~ difference [pa; pb; pc] [o] (mkV 3 0 0).
Proof.
  split; [|split; [val|split; [val|]]].
  - exists pc, o. split; [exists [0; 0; 1]; split; [split; [reflexivity|split; [weights|cbn; ring]]|apply vec_ext; cbn; ring]|]. split; [exists [1]; split; [split; [reflexivity|split; [weights|cbn; ring]]|apply vec_ext; cbn; ring]|].
    cbn. split; [lra|split; lra].
  - intros (p & q & (l & (L & P & S) & ->) & (l' & (L' & P' & S') & ->) & E & _). destruct l as [|l1 [|l2 [|l3 [|? ?]]]]; try discriminate L. destruct l' as [|m [|? ?]]; try discriminate L'.
    assert (0 <= l1) by (apply P; cbn; auto). assert (0 <= l2) by (apply P; cbn; auto). assert (0 <= l3) by (apply P; cbn; auto). cbn in E, S. lra.
Qed.

(** ** A value that is not initialised *)
Definition ta := mkV 1 0 0.
Definition tb := mkV 2 1 0.
Definition tc := mkV 2 0 1.
Definition td := mkV 2 (-1) (-1).
Lemma tet_independent : independent [ta; tb; tc; td].
Proof.
  intros c L S C. destruct c as [|c0 [|c1 [|c2 [|c3 [|? ?]]]]]; try discriminate L. cbn in S. unfold combination, comb in C. cbn in C. injection C as C1 C2 C3.
  assert (c0 = 0) by lra. assert (c1 = 0) by lra. assert (c2 = 0) by lra. assert (c3 = 0) by lra. subst. weights.
Qed.
Lemma tet_vertex : closest (hull [ta; tb; tc; td]) ta.
Proof.
  assert (E : combination [ta; tb; tc; td] [1; 0; 0; 0] = ta) by (apply vec_ext; cbn; ring). pose proof (closest_iff [ta; tb; tc; td] [1; 0; 0; 0]) as G. rewrite E in G. apply G; [split; [reflexivity|split; [weights|cbn; ring]]|]. weights; val.
Qed.
Lemma tet_missed diag : 0 < diag 0%nat -> nearest diag [ta; tb; tc; td] = Some (Some [2; -1 / 3; -1 / 3; -1 / 3]).
Proof.
  intro Hd. cbn [nearest]. f_equal. set (s := fun i => nth i [ta; tb; tc; td] zero_vec). unfold nearest4.
  assert (O : forall i j, In i (seq 0 4) -> In j (seq 0 4) -> 0 < d diag s i j -> out diag s i = false).
  { intros i j Hi Hj H. unfold out. apply not_true_iff_false. intro F. rewrite forallb_forall in F. specialize (F j Hj). apply negb_true_iff, lt_false in F. lra. }
  assert (F1 : find (out diag s) (seq 0 4) = None).
  { cbn [find seq]. rewrite (O 0%nat 0%nat), (O 1%nat 0%nat), (O 2%nat 0%nat), (O 3%nat 0%nat); [reflexivity|cbn; tauto|cbn; tauto| |cbn; tauto|cbn; tauto| |cbn; tauto|cbn; tauto| |cbn; tauto|cbn; tauto|exact Hd]; cbn -[Rlt dot3]; val. }
  rewrite F1. assert (V : forall i, (i < 6)%nat -> on_edge diag s i = false).
  { intros i Hi. apply not_true_iff_false. intro F. destruct (edge i) as (p, q) eqn:E. destruct (proj1 (on_edge_iff diag s i p q Hi E) F) as (G1 & G2 & G3). specialize (G3 0%nat ltac:(lia)).
    do 6 (destruct i as [|i]; [injection E as <- <-; unfold ev, gd, s in *; cbn [nth] in *; unfold inner in *; cbn [vx vy vz ta tb tc td] in *; lra|]). lia. }
  assert (F2 : find (on_edge diag s) (seq 0 6) = None) by (cbn [find seq]; rewrite !V by lia; reflexivity). rewrite F2.
  destruct (v_ev diag s 2 ltac:(lia)) as (V20 & V21). destruct (v_ev diag s 5 ltac:(lia)) as (V50 & V51). destruct (v_ev diag s 4 ltac:(lia)) as (V40 & V41).
  destruct (v_ev diag s 1 ltac:(lia)) as (V10 & V11). destruct (v_ev diag s 3 ltac:(lia)) as (V30 & V31). destruct (v_ev diag s 0 ltac:(lia)) as (V00 & V01).
  rewrite V20, V21, V50, V51, V40, V41, V10, V11, V30, V31, V00, V01. clear.
  assert (D : det4 (s 0%nat) (s 1%nat) (s 2%nat) (s 3%nat) = (-1, -1, -1, 6)) by (unfold det4, s; cbn [nth vx vy vz ta tb tc td]; f_equal; [f_equal; [f_equal|]|]; ring).
  rewrite D. cbv zeta. test (lt (-1 + -1 + -1 + 6) 0) false. cbn [fst snd edge edges nth Nat.sub].
  unfold ev, gd, s. cbn [nth]. unfold inner. cbn [vx vy vz ta tb tc td].
  repeat match goal with |- context [lt 0 ?x] => first [assert (Hx : lt 0 x = false) by (apply lt_false; lra); rewrite Hx, ?andb_false_r; clear Hx; cbn [andb]
    |assert (Hx : lt 0 x = true) by (apply lt_spec; lra); rewrite Hx, ?andb_true_r; clear Hx; cbn [andb]] end.
  test (lt 6 0) false. cbn [andb omap]. rewrite !quotient_some by lra. cbn [obind]. f_equal. f_equal; [field|f_equal; [field|f_equal; [field|f_equal; field]]].
Qed.

(** ** Conditions that are met *)
Lemma segment_run diag eps : 0 < eps <= 1 / 4 -> compute_distance_gjk diag eps [pa; pb] [o] = Distance pd.
Proof.
  intro He. assert (C : corners [pa; pb] [o] = [pa; pb]) by (change (corners [pa; pb] [o]) with [minus pa o; minus pb o]; rewrite !minus_o; reflexivity).
  unfold compute_distance_gjk. rewrite minus_o. set (k := 13%nat). change 15%nat with (S (S k)). cbn [iterate]. cbv zeta.
  rewrite (support_unique eps [pa; pb] [o] pa pb); [|discriminate|discriminate|rewrite C; cbn; auto|rewrite C; intros z [<-|[<-|[]]] N; try contradiction; val].
  cbn [existsb]. rewrite same_false by (left; cbn; lra). cbn [orb]. test (lt (dot3 pa pa - dot3 pa pb) (eps * dot3 pa pa)) false. test (lt (dot3 pa pa - dot3 pa pb) eps) false. cbn [orb app nearest].
  assert (N2 : nearest2 pa pb = Some [10 / 17; 7 / 17]).
  { unfold nearest2. cbv zeta. test (lt (dot3 pa pa - dot3 pa pb) 0) false. test (lt (dot3 pb pb - dot3 pb pa) 0) false.
    rewrite quotient_some by val. cbn [obind]. unfold dot3. cbn [vx vy vz pa pb]. f_equal. f_equal; [field|f_equal; field]. }
  rewrite N2. assert (R2 : reduce [pa; pb] [10 / 17; 7 / 17] = (pd, [pa; pb])).
  { rewrite reduce_ok by weights. unfold kept. cbn [combine filter snd]. test (lt 0 (10 / 17)) true. test (lt 0 (7 / 17)) true. cbn [map fst]. f_equal. apply vec_ext; cbn; field. }
  rewrite R2. assert (Sq : dot3 pd pd = 36 / 17) by (unfold dot3; cbn; field). rewrite Sq. test (le (dot3 pa pa) (36 / 17)) false.
  assert (T : lt (36 / 17) (eps * eps) = false) by (apply lt_false; nra). rewrite T.
  destruct (support_point_ok eps [pa; pb] [o] pd ltac:(discriminate) ltac:(discriminate)) as (z & -> & Hz & _). rewrite C in Hz.
  assert (E : existsb (fun a => same a z) [pa; pb] = true); [|rewrite E; reflexivity].
  assert (Sm : forall a, same a a = true) by (intro a; unfold same; destruct (Req_EM_T (vx a) (vx a)); [|contradiction]; destruct (Req_EM_T (vy a) (vy a)); [|contradiction]; destruct (Req_EM_T (vz a) (vz a)); [reflexivity|contradiction]).
  apply existsb_exists. exists z. split; [exact Hz|apply Sm].
Qed.
Lemma segment_no_foot : no_foot (corners [pa; pb] [o]).
Proof.
  change (corners [pa; pb] [o]) with [minus pa o; minus pb o]. rewrite !minus_o. intros x y [<-|[<-|[]]] [<-|[<-|[]]] N; try contradiction; intro E; unfold inner in E; cbn in E; lra.
Qed.
Lemma boxes_no_foot : no_foot (corners [mkV 3 1 0; mkV 4 (-1) 0; mkV 5 0 1] [mkV 0 0 0; mkV (-1) 0 1]).
Proof.
  intros x y Hx Hy N. cbn in Hx, Hy. destruct Hx as [<-|[<-|[<-|[<-|[<-|[<-|[]]]]]]]; destruct Hy as [<-|[<-|[<-|[<-|[<-|[<-|[]]]]]]]; try contradiction; unfold inner; cbn; lra.
Qed.
