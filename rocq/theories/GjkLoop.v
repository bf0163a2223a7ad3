(** The iteration: the points kept span a simplex with the current point in its interior. *)
From Coq Require Import Reals Lra Psatz.
From Verif Require Import Base BaseProofs GenerationSpec Gjk GjkSpec GjkHull GjkNearest GjkTet.
Open Scope R_scope.

(** ** Support points *)
Lemma support_ok bd dir : bd <> [] -> exists b, support bd dir = Some b /\ In b bd /\ forall b', In b' bd -> inner b' dir <= inner b dir.
Proof.
  destruct bd as [|b0 bs]; intro H; [contradiction|]. unfold support. change dot3 with inner. set (f := fun (st : vec * R) b => if lt (snd st) (inner b dir) then (b, inner b dir) else st).
  assert (G : forall l st, snd st = inner (fst st) dir -> let r := fold_left f l st in (r = st \/ In (fst r) l) /\ snd r = inner (fst r) dir /\ snd st <= snd r /\ forall b', In b' l -> inner b' dir <= snd r).
  { induction l as [|x l IH]; intros st E; cbn [fold_left].
    - split; [left; reflexivity|]. split; [exact E|]. split; [lra|intros ? []].
    - assert (E' : snd (f st x) = inner (fst (f st x)) dir /\ snd st <= snd (f st x) /\ inner x dir <= snd (f st x) /\ (f st x = st \/ fst (f st x) = x)).
      { unfold f. destruct (lt (snd st) (inner x dir)) eqn:T; cbn [fst snd]; [apply lt_spec in T|apply lt_false in T]; (split; [auto|split; [lra|split; [lra|auto]]]). }
      destruct E' as (E1 & E2 & E3 & E4). destruct (IH (f st x) E1) as (G1 & G2 & G3 & G4). split; [|split; [exact G2|split; [lra|]]].
      + destruct G1 as [G1|G1]; [|right; right; exact G1]. rewrite G1. destruct E4 as [E4|E4]; [left; exact E4|right; left; symmetry; exact E4].
      + intros b' [<-|Hb]; [lra|apply G4, Hb]. }
  destruct (G bs (b0, inner b0 dir) eq_refl) as (G1 & G2 & G3 & G4). cbv zeta in *. set (r := fold_left f bs (b0, inner b0 dir)) in *. exists (fst r). split; [reflexivity|]. cbn [snd] in G3. split.
  - destruct G1 as [G1|G1]; [rewrite G1; left; reflexivity|right; exact G1].
  - intros b' [<-|Hb]; [lra|rewrite <- G2; apply G4, Hb].
Qed.
Lemma in_corners P Q y : In y (corners P Q) <-> exists p q, In p P /\ In q Q /\ y = minus p q.
Proof.
  change (corners P Q) with (concat (map (fun p => map (fun q => minus p q) Q) P)). rewrite in_concat. split.
  - intros (l & Hl & Hy). apply in_map_iff in Hl as (p & <- & Hp). apply in_map_iff in Hy as (q & <- & Hq). exists p, q. auto.
  - intros (p & q & Hp & Hq & ->). exists (map (fun q => minus p q) Q). split; [apply (in_map (fun p => map (fun q => minus p q) Q)), Hp|apply (in_map (fun q => minus p q)), Hq].
Qed.
Lemma support_point_ok eps P Q x : P <> [] -> Q <> [] -> exists y, support_point eps P Q x = Some y /\ In y (corners P Q) /\ forall z, In z (corners P Q) -> inner x y <= inner x z.
Proof.
  intros HP HQ. unfold support_point. cbv zeta.
  assert (L : exists k, 0 < k /\ (if lt (eps * eps) (dot3 x x) then scale (1 / sqrt (dot3 x x)) x else x) = scale k x).
  { destruct (lt (eps * eps) (dot3 x x)) eqn:T.
    - apply lt_spec in T. exists (1 / sqrt (dot3 x x)). split; [|reflexivity]. apply pos_div; [|lra]. apply sqrt_lt_R0. nra.
    - exists 1. split; [lra|]. apply vec_ext; cbn; ring. }
  destruct L as (k & Hk & ->). destruct (support_ok P (scale (-1) (scale k x)) HP) as (p & -> & Hp & Mp). destruct (support_ok Q (scale k x) HQ) as (q & -> & Hq & Mq). cbn [obind].
  exists (minus p q). split; [reflexivity|]. split; [apply in_corners; exists p, q; auto|]. intros z Hz. apply in_corners in Hz as (p' & q' & Hp' & Hq' & ->).
  specialize (Mp p' Hp'). specialize (Mq q' Hq'). rewrite !inner_minus.
  assert (S1 : forall b, inner b (scale k x) = k * inner x b) by (intro b; unfold inner, scale; cbn; ring).
  assert (S2 : forall b, inner b (scale (-1) (scale k x)) = - (k * inner x b)) by (intro b; unfold inner, scale; cbn; ring). rewrite !S1 in Mq. rewrite !S2 in Mp.
  assert (k * inner x p <= k * inner x p') by lra. apply Rmult_le_reg_l in H; [|exact Hk]. apply Rmult_le_reg_l in Mq; [|exact Hk]. lra.
Qed.

(** ** The difference of the bodies *)
Lemma unit_of s a : In a s -> exists e, length e = length s /\ (forall x, In x e -> 0 <= x) /\ rsum e = 1 /\ forall f : vec -> R, comb f s e = f a.
Proof.
  assert (Z : forall (s : list vec), let e := map (fun _ => 0) s in length e = length s /\ (forall x, In x e -> 0 <= x) /\ rsum e = 0 /\ forall f : vec -> R, comb f s e = 0).
  { induction s0 as [|x l (L & P & S & C)]; cbn [map length]; cbv zeta in *; [split; [reflexivity|split; [intros ? []|split; reflexivity]]|].
    split; [lia|]. split; [intros y [<-|Hy]; [lra|apply P, Hy]|]. split; [rewrite rsum_cons; lra|intro f; rewrite comb_cons, C; ring]. }
  induction s as [|x s IH]; intro H; [destruct H|]. destruct H as [->|H].
  - destruct (Z s) as (L & P & S & C). exists (1 :: map (fun _ => 0) s). cbv zeta in *. split; [cbn; lia|]. split; [intros y [<-|Hy]; [lra|apply P, Hy]|]. split; [rewrite rsum_cons; lra|intro f; rewrite comb_cons, C; ring].
  - destruct (IH H) as (e & L & P & S & C). exists (0 :: e). split; [cbn; lia|]. split; [intros y [<-|Hy]; [lra|apply P, Hy]|]. split; [rewrite rsum_cons; lra|intro f; rewrite comb_cons, C; ring].
Qed.
Lemma lin_pos al be l m : 0 <= al -> 0 <= be -> (forall x, In x l -> 0 <= x) -> (forall x, In x m -> 0 <= x) -> forall x, In x (lin al be l m) -> 0 <= x.
Proof.
  intros A B L M x Hx. unfold lin in Hx. apply in_map_iff in Hx as ((u, w) & <- & Hin). cbn [fst snd].
  assert (0 <= al * u) by (apply Rmult_le_pos; [exact A|apply L; eapply in_combine_l; exact Hin]). assert (0 <= be * w) by (apply Rmult_le_pos; [exact B|apply M; eapply in_combine_r; exact Hin]). lra.
Qed.
Lemma cone P Q s : P <> [] -> Q <> [] -> (forall a, In a s -> In a (corners P Q)) -> forall l, length l = length s -> (forall x, In x l -> 0 <= x) ->
  exists lp lq, (length lp = length P /\ (forall x, In x lp -> 0 <= x) /\ rsum lp = rsum l) /\ (length lq = length Q /\ (forall x, In x lq -> 0 <= x) /\ rsum lq = rsum l) /\
    comb vx P lp - comb vx Q lq = comb vx s l /\ comb vy P lp - comb vy Q lq = comb vy s l /\ comb vz P lp - comb vz Q lq = comb vz s l.
Proof.
  intros HP HQ. induction s as [|a s IH]; intros Hs [|c l] Hl Hp; try discriminate Hl.
  - destruct P as [|p P]; [contradiction|]. destruct Q as [|q Q]; [contradiction|]. destruct (unit_of (p :: P) p (or_introl eq_refl)) as (e & L & Pe & _ & _). destruct (unit_of (q :: Q) q (or_introl eq_refl)) as (e' & L' & Pe' & _ & _).
    exists (lin 0 0 e e), (lin 0 0 e' e'). rewrite !lin_length, !lin_rsum, !lin_comb by congruence. split; [split; [congruence|split; [apply lin_pos; (lra || assumption)|cbn; lra]]|].
    split; [split; [congruence|split; [apply lin_pos; (lra || assumption)|cbn; lra]]|]. rewrite !comb_nil. split; [lra|split; lra].
  - destruct (IH (fun b Hb => Hs b (or_intror Hb)) l ltac:(cbn in Hl; lia) (fun x Hx => Hp x (or_intror Hx))) as (lp & lq & (L1 & P1 & S1) & (L2 & P2 & S2) & E1 & E2 & E3).
    destruct (proj1 (in_corners P Q a) (Hs a (or_introl eq_refl))) as (p & q & Hpp & Hqq & ->).
    destruct (unit_of P p Hpp) as (e & L & Pe & Se & Ce). destruct (unit_of Q q Hqq) as (e' & L' & Pe' & Se' & Ce'). assert (C0 : 0 <= c) by (apply Hp; left; reflexivity).
    exists (lin 1 c lp e), (lin 1 c lq e'). rewrite !lin_length, !lin_rsum, !lin_comb by congruence. rewrite !Ce, !Ce', Se, Se', S1, S2, !comb_cons, !rsum_cons. cbn [vx vy vz minus].
    split; [split; [congruence|split; [apply lin_pos; (lra || assumption)|ring]]|]. split; [split; [congruence|split; [apply lin_pos; (lra || assumption)|ring]]|]. split; [lra|split; lra].
Qed.
Lemma hull_difference P Q s y : P <> [] -> Q <> [] -> (forall a, In a s -> In a (corners P Q)) -> hull s y -> difference P Q y.
Proof.
  intros HP HQ Hs (l & (L & Hp & S) & ->). destruct (cone P Q s HP HQ Hs l L Hp) as (lp & lq & (L1 & P1 & S1) & (L2 & P2 & S2) & E1 & E2 & E3).
  exists (combination P lp), (combination Q lq). split; [exists lp; split; [split; [exact L1|split; [exact P1|congruence]]|reflexivity]|].
  split; [exists lq; split; [split; [exact L2|split; [exact P2|congruence]]|reflexivity]|]. unfold combination. cbn [vx vy vz]. auto.
Qed.
Lemma difference_lower P Q x k y : (forall z, In z (corners P Q) -> k <= inner x z) -> difference P Q y -> k <= inner x y.
Proof.
  intros H (p & q & (lp & (Lp & Pp & Sp) & ->) & (lq & (Lq & Pq & Sq) & ->) & E1 & E2 & E3).
  assert (E : inner x y = comb (inner x) P lp - comb (inner x) Q lq) by (rewrite <- !inner_comb, <- inner_minus; f_equal; apply vec_ext; unfold minus; cbn [vx vy vz]; assumption).
  rewrite E.
  assert (M : forall q, In q Q -> k + inner x q <= comb (inner x) P lp).
  { intros q Hq. replace (k + inner x q) with ((k + inner x q) * rsum lp) by (rewrite Sp; ring). apply comb_lower; [exact Lp|exact Pp|]. intros p Hp.
    assert (G : k <= inner x (minus p q)) by (apply H, in_corners; exists p, q; auto). rewrite inner_minus in G. lra. }
  assert (N : (k - comb (inner x) P lp) * rsum lq <= comb (fun q => -1 * inner x q) Q lq) by (apply comb_lower; [exact Lq|exact Pq|intros q Hq; specialize (M q Hq); lra]).
  rewrite comb_scale, Sq in N. lra.
Qed.

(** ** The points that are kept *)
Definition kept (s : list vec) (l : list R) : list vec := map fst (filter (fun al => lt 0 (snd al)) (combine s l)).
Definition keptw (s : list vec) (l : list R) : list R := map snd (filter (fun al => lt 0 (snd al)) (combine s l)).
Lemma reduce_ok s l : (forall x, In x l -> 0 <= x) -> reduce s l = (combination s l, kept s l).
Proof.
  intro H. unfold reduce, kept, combination, comb. assert (H' : forall a x, In (a, x) (combine s l) -> 0 <= x) by (intros a x Hin; apply H; eapply in_combine_r; exact Hin).
  assert (G : forall ps x0 y0 z0 k, (forall a x, In (a, x) ps -> 0 <= x) ->
    fold_left (fun st al => if lt 0 (snd al) then (mkV (vx (fst st) + snd al * vx (fst al)) (vy (fst st) + snd al * vy (fst al)) (vz (fst st) + snd al * vz (fst al)), snd st ++ [fst al]) else st) ps (mkV x0 y0 z0, k)
    = (mkV (x0 + rsum (map (fun vw => vx (fst vw) * snd vw) ps)) (y0 + rsum (map (fun vw => vy (fst vw) * snd vw) ps)) (z0 + rsum (map (fun vw => vz (fst vw) * snd vw) ps)), k ++ map fst (filter (fun al => lt 0 (snd al)) ps))).
  { induction ps as [|(a, x) ps IH]; intros x0 y0 z0 k Hp.
    - cbn. rewrite app_nil_r. f_equal. f_equal; ring.
    - cbn [fold_left map filter fst snd]. rewrite !rsum_cons. assert (Hp' : forall a x, In (a, x) ps -> 0 <= x) by (intros b y Hb; apply (Hp b y); right; exact Hb). destruct (lt 0 x) eqn:T.
      + cbn [vx vy vz]. rewrite IH by exact Hp'. cbn [map fst]. rewrite <- app_assoc. f_equal. f_equal; ring.
      + apply lt_false in T. assert (x = 0) by (pose proof (Hp a x (or_introl eq_refl)); lra). subst x. rewrite IH by exact Hp'. f_equal. f_equal; ring. }
  unfold zero_vec. rewrite G by exact H'. f_equal. f_equal; ring.
Qed.
Lemma kept_length s l : length (keptw s l) = length (kept s l) /\ (length (kept s l) <= length s)%nat.
Proof.
  unfold kept, keptw. rewrite !map_length. split; [reflexivity|]. revert l. induction s as [|a s IH]; intros [|c l]; cbn; try lia. specialize (IH l). destruct (lt 0 c); cbn; lia.
Qed.
Lemma kept_weights s l : (forall x, In x l -> 0 <= x) -> length l = length s -> rsum (keptw s l) = rsum l /\ (forall x, In x (keptw s l) -> 0 < x) /\ forall f : vec -> R, comb f (kept s l) (keptw s l) = comb f s l.
Proof.
  revert l. induction s as [|a s IH]; intros [|c l] Hp Hl; try discriminate Hl.
  - split; [reflexivity|split; [intros ? []|reflexivity]].
  - destruct (IH l (fun x Hx => Hp x (or_intror Hx)) ltac:(cbn in Hl; lia)) as (E1 & E2 & E3). unfold kept, keptw in *. cbn [combine filter snd]. destruct (lt 0 c) eqn:T.
    + apply lt_spec in T. cbn [map fst snd]. split; [rewrite !rsum_cons, E1; reflexivity|]. split; [intros x [<-|Hx]; [exact T|apply E2, Hx]|]. intro f. rewrite !comb_cons, E3. reflexivity.
    + apply lt_false in T. assert (c = 0) by (pose proof (Hp c (or_introl eq_refl)); lra). subst c. split; [rewrite rsum_cons, E1; ring|]. split; [exact E2|]. intro f. rewrite comb_cons, E3. ring.
Qed.
Lemma kept_in s l a : In a (kept s l) -> exists i x, nth_error s i = Some a /\ nth_error l i = Some x /\ 0 < x.
Proof.
  revert l. induction s as [|b s IH]; intros [|c l]; unfold kept in *; cbn [combine filter snd]; try (intros []).
  destruct (lt 0 c) eqn:T; cbn [map fst].
  - apply lt_spec in T. intros [<-|H]; [exists 0%nat, c; auto|]. destruct (IH l H) as (i & x & H1 & H2 & H3). exists (S i), x. auto.
  - intro H. destruct (IH l H) as (i & x & H1 & H2 & H3). exists (S i), x. auto.
Qed.
Lemma kept_extend s l c : length l = length s -> length c = length (kept s l) -> exists c', length c' = length s /\ rsum c' = rsum c /\ (forall f : vec -> R, comb f s c' = comb f (kept s l) c) /\ forall x, In x c -> In x c'.
Proof.
  revert l c. induction s as [|b s IH]; intros [|x l] c Hl Hc; try discriminate Hl.
  - destruct c; [|discriminate Hc]. exists []. split; [reflexivity|split; [reflexivity|split; [reflexivity|intros ? []]]].
  - unfold kept in Hc |- *. cbn [combine filter snd] in Hc |- *. destruct (lt 0 x).
    + destruct c as [|y c]; [discriminate Hc|]. cbn in Hc. destruct (IH l c ltac:(cbn in Hl; lia) ltac:(unfold kept; lia)) as (c' & L & S & C & I). exists (y :: c'). split; [cbn; lia|]. split; [rewrite !rsum_cons, S; reflexivity|].
      split; [intro f; cbn [map fst]; rewrite !comb_cons, C; reflexivity|]. intros z [<-|Hz]; [left; reflexivity|right; apply I, Hz].
    + destruct (IH l c ltac:(cbn in Hl; lia) Hc) as (c' & L & S & C & I). exists (0 :: c'). split; [cbn; lia|]. split; [rewrite rsum_cons, S; ring|]. split; [intro f; rewrite comb_cons, C; unfold kept; ring|]. intros z Hz. right. apply I, Hz.
Qed.
Lemma kept_independent s l : length l = length s -> independent s -> independent (kept s l).
Proof.
  intros Hl H c Lc Sc Cc x Hx. destruct (kept_extend s l c Hl Lc) as (c' & L & S & C & I). apply (H c' L ltac:(congruence)); [|apply I, Hx]. rewrite <- Cc. unfold combination. rewrite !C. reflexivity.
Qed.

(** ** One iteration *)
Section Loop.
Variable diag : nat -> R.
Variable eps : R.
Variables P Q : list vec.
Hypothesis HP : P <> [].
Hypothesis HQ : Q <> [].
Hypothesis Heps : 0 < eps <= 1.
Hypothesis Hdiag : forall i, diag i <= 0.
Hypothesis Hfoot : no_foot (corners P Q).

Definition tol (x : vec) : R := 2 * (eps * Rmax 1 (norm2 x)).
Definition good (x : vec) : Prop := difference P Q x /\ forall y, difference P Q y -> norm2 x <= norm2 y + tol x.
Record inv (x : vec) (s : list vec) : Prop := {
  in_ind : independent s;
  in_len : (1 <= length s <= 3)%nat;
  in_cor : forall a, In a s -> In a (corners P Q);
  in_w : exists l, simplex_weights (length s) l /\ x = combination s l;
  in_eq : forall a, In a s -> inner x a = norm2 x }.
Lemma good_lower x k : difference P Q x -> (forall y, difference P Q y -> k <= inner x y) -> norm2 x - k <= eps * Rmax 1 (norm2 x) -> good x.
Proof.
  intros Hx H Hk. split; [exact Hx|]. intros y Hy. specialize (H y Hy). unfold tol.
  assert (Q1 : norm2 (minus y x) = norm2 y - 2 * inner x y + norm2 x) by (unfold norm2, inner, minus; cbn [vx vy vz]; ring). pose proof (norm2_nonneg (minus y x)). lra.
Qed.
Lemma inv_difference x s : inv x s -> difference P Q x.
Proof. intros [I L C (l & W & E) K]. apply (hull_difference P Q s x HP HQ C). exists l. split; assumption. Qed.
Lemma same_eq a b : same a b = true -> a = b.
Proof.
  unfold same. destruct (Req_EM_T (vx a) (vx b)); [|discriminate]. destruct (Req_EM_T (vy a) (vy b)); [|discriminate]. destruct (Req_EM_T (vz a) (vz b)); [|discriminate].
  intros _. apply vec_ext; assumption.
Qed.
Lemma app_independent x s a : inv x s -> inner x a < norm2 x -> independent (s ++ [a]).
Proof.
  intros [I L C W K] Ha c Lc Sc Cc. rewrite app_length in Lc. cbn [length] in Lc.
  assert (E : exists c1 g, c = c1 ++ [g] /\ length c1 = length s).
  { destruct (exists_last (l := c)) as (c1 & g & ->); [intros ->; cbn in Lc; lia|]. exists c1, g. split; [reflexivity|]. rewrite app_length in Lc. cbn in Lc. lia. }
  destruct E as (c1 & g & -> & L1). rewrite rsum_app in Sc. cbn in Sc.
  assert (G : inner x (combination (s ++ [a]) (c1 ++ [g])) = norm2 x * rsum c1 + inner x a * g).
  { rewrite inner_comb, comb_app by exact L1. rewrite (comb_const _ (norm2 x) s c1 L1 K), comb_cons, comb_nil. ring. }
  rewrite Cc in G. unfold inner at 1 in G. cbn [vx vy vz] in G. assert (g = 0).
  { assert (E : rsum c1 = - g) by lra. rewrite E in G. assert (E2 : g * (inner x a - norm2 x) = 0) by lra. apply Rmult_integral in E2 as [E2|E2]; [exact E2|lra]. }
  subst g. assert (Z : forall y, In y c1 -> y = 0).
  { apply (I c1 L1); [lra|]. rewrite <- Cc. unfold combination. rewrite !comb_app by exact L1. rewrite !comb_cons, !comb_nil. f_equal; ring. }
  intros y Hy. apply in_app_iff in Hy as [Hy|[<-|[]]]; [apply Z, Hy|reflexivity].
Qed.
Lemma tetra_zero a b c e x : independent [a; b; c; e] -> (forall y, In y [a; b; c; e] -> inner x y = norm2 x) -> norm2 x = 0.
Proof.
  intros I H. destruct (det4 a b c e) as (((w0, w1), w2), w3) eqn:E. pose proof (det4_origin _ _ _ _ _ _ _ _ E x) as O. pose proof (det4_nonzero _ _ _ _ _ _ _ _ E I) as N.
  rewrite !(inner_comm _ x), !H in O by (cbn; auto). assert (Z : (w0 + w1 + w2 + w3) * norm2 x = 0) by lra. apply Rmult_integral in Z as [Z|Z]; [contradiction|exact Z].
Qed.
Lemma nearest_inv x s a : inv x s -> In a (corners P Q) -> inner x a < norm2 x ->
  exists l, nearest diag (s ++ [a]) = Some (Some l) /\ simplex_weights (length (s ++ [a])) l /\ closest (hull (s ++ [a])) (combination (s ++ [a]) l).
Proof.
  intros V Ha Hx. pose proof (app_independent x s a V Hx) as I. destruct V as [I0 L C W K].
  destruct s as [|p [|q [|r [|? ?]]]]; try (exfalso; cbn in L; lia); cbn [app] in *; cbn [nearest].
  - destruct (nearest2_ok p a I) as (l & -> & H). exists l. split; [reflexivity|exact H].
  - destruct (nearest3_ok p q a I) as (l & -> & H); [|exists l; split; [reflexivity|exact H]].
    intros u w Hu Hw N. apply Hfoot; [| |exact N].
    + destruct Hu as [<-|[<-|[<-|[]]]]; [apply C; cbn; auto|apply C; cbn; auto|exact Ha].
    + destruct Hw as [<-|[<-|[<-|[]]]]; [apply C; cbn; auto|apply C; cbn; auto|exact Ha].
  - destruct (nearest4_ok diag Hdiag p q r a I) as (l & E & H). exists l. split; [f_equal; exact E|exact H].
Qed.
Lemma iterate_ok k x s : inv x s -> match iterate diag eps P Q k x s with Distance y => good y | Max_iterations => True | _ => False end.
Proof.
  revert x s. induction k as [|k IH]; intros x s V; [exact I|]. cbn [iterate]. cbv zeta. destruct (support_point_ok eps P Q x HP HQ) as (a & -> & Ha & Hmin).
  assert (Low : forall y, difference P Q y -> inner x a <= inner x y) by (intros y Hy; exact (difference_lower P Q x _ y Hmin Hy)).
  pose proof (inv_difference x s V) as Dx. change (dot3 x x) with (norm2 x). change (dot3 x a) with (inner x a).
  assert (M1 : 1 <= Rmax 1 (norm2 x)) by apply Rmax_l. assert (M2 : norm2 x <= Rmax 1 (norm2 x)) by apply Rmax_r.
  destruct (existsb (fun b => same b a) s) eqn:T0.
  { apply existsb_exists in T0 as (b & Hb & E). apply same_eq in E. subst b. apply (good_lower x (inner x a) Dx Low). rewrite (in_eq x s V a Hb). nra. }
  destruct (lt (norm2 x - inner x a) (eps * norm2 x) || lt (norm2 x - inner x a) eps) eqn:T1.
  { apply orb_true_iff in T1. rewrite !lt_spec in T1. apply (good_lower x (inner x a) Dx Low). destruct T1 as [T1|T1]; nra. }
  apply orb_false_iff in T1 as (T1 & T2). apply lt_false in T1, T2. assert (Lt : inner x a < norm2 x) by lra.
  destruct (nearest_inv x s a V Ha Lt) as (l & -> & W & Hc). pose proof (app_independent x s a V Lt) as Ind. destruct W as (L & Pl & S). rewrite (reduce_ok _ _ Pl).
  set (t := s ++ [a]) in *. set (y := combination t l) in *. change (dot3 y y) with (norm2 y).
  assert (Cor : forall b, In b t -> In b (corners P Q)) by (intros b Hb; apply in_app_iff in Hb as [Hb|[<-|[]]]; [apply (in_cor x s V), Hb|exact Ha]).
  assert (Dy : difference P Q y) by (apply (hull_difference P Q t y HP HQ Cor); exists l; split; [split; [exact L|split; assumption]|reflexivity]).
  assert (Dec : norm2 y < norm2 x).
  { destruct (in_w x s V) as (lx & (Lx & Px & Sx) & Ex).
    assert (Wx : simplex_weights (length t) (lx ++ [0])).
    { split; [unfold t; rewrite !app_length; cbn; lia|]. split; [intros b Hb; apply in_app_iff in Hb as [Hb|[<-|[]]]; [apply Px, Hb|lra]|rewrite rsum_app; cbn; lra]. }
    assert (Ext : combination t (lx ++ [0]) = x) by (rewrite Ex; unfold t, combination; rewrite !comb_app by exact Lx; rewrite !comb_cons, !comb_nil; f_equal; ring).
    assert (Hle : norm2 y <= norm2 x) by (apply Hc; exists (lx ++ [0]); split; [exact Wx|symmetry; exact Ext]).
    destruct (Req_dec (norm2 y) (norm2 x)) as [E|E]; [|lra]. exfalso.
    assert (Cx : closest (hull t) (combination t (lx ++ [0]))).
    { split; [exists (lx ++ [0]); split; [exact Wx|reflexivity]|]. rewrite Ext. intros z Hz. rewrite <- E. apply Hc, Hz. }
    pose proof (proj1 (closest_iff t _ Wx) Cx a ltac:(unfold t; apply in_app_iff; right; left; reflexivity)) as G. rewrite Ext in G. lra. }
  assert (T3 : le (norm2 x) (norm2 y) = false) by (apply le_false; exact Dec). rewrite T3.
  destruct (lt (norm2 y) (eps * eps)) eqn:T4.
  { apply lt_spec in T4. split; [exact Dy|]. intros z Hz. unfold tol. pose proof (norm2_nonneg z). pose proof (Rmax_l 1 (norm2 y)). assert (eps * eps <= eps) by nra. nra. }
  apply lt_false in T4. apply IH.
  assert (Keq : forall b, In b (kept t l) -> inner y b = norm2 y).
  { intros b Hb. apply kept_in in Hb as (i & w & H1 & H2 & H3). apply (closest_support t l ltac:(split; [exact L|split; assumption]) Hc i b w H1 H2 H3). }
  destruct (kept_weights t l Pl L) as (S1 & P1 & C1). destruct (kept_length t l) as (L1 & L2). pose proof (kept_independent t l L Ind) as KI.
  assert (Lt4 : (length t <= 4)%nat) by (unfold t; rewrite app_length; cbn; pose proof (in_len x s V); lia).
  split.
  - exact KI.
  - assert (Hne : (length (kept t l) <> 0)%nat) by (intro Z; rewrite Z in L1; destruct (keptw t l); [cbn in S1; lra|discriminate L1]).
    destruct (Nat.eq_dec (length (kept t l)) 4) as [E4|E4]; [exfalso|lia].
    destruct (kept t l) as [|b0 [|b1 [|b2 [|b3 [|? ?]]]]]; try discriminate E4. pose proof (tetra_zero b0 b1 b2 b3 y KI Keq). nra.
  - intros b Hb. apply Cor. apply kept_in in Hb as (i & w & H1 & _). eapply nth_error_In. exact H1.
  - exists (keptw t l). split; [split; [exact L1|split; [intros b Hb; apply Rlt_le, P1, Hb|congruence]]|]. unfold y, combination. rewrite !C1. reflexivity.
  - exact Keq.
Qed.
Lemma gjk_ok : match compute_distance_gjk diag eps P Q with Distance y => good y | Max_iterations => True | _ => False end.
Proof.
  unfold compute_distance_gjk. destruct P as [|p P'] eqn:EP; [contradiction|]. destruct Q as [|q Q'] eqn:EQ; [contradiction|]. rewrite <- EP, <- EQ in *. apply iterate_ok. set (a := minus p q). split.
  - intros c Lc Sc _ x Hx. destruct c as [|c0 [|? ?]]; try discriminate Lc. cbn in Sc. destruct Hx as [<-|[]]. lra.
  - cbn. lia.
  - intros b [<-|[]]. apply in_corners. exists p, q. rewrite EP, EQ. split; [left; reflexivity|split; [left; reflexivity|reflexivity]].
  - exists [1]. split; [split; [reflexivity|split; [weights|cbn; ring]]|]. apply vec_ext; cbn; ring.
  - intros b [<-|[]]. reflexivity.
Qed.
End Loop.

(** ** Distance to the closest point *)
Lemma difference_convex P Q x y th : difference P Q x -> difference P Q y -> 0 <= th <= 1 -> difference P Q (mkV ((1 - th) * vx x + th * vx y) ((1 - th) * vy x + th * vy y) ((1 - th) * vz x + th * vz y)).
Proof.
  intros (p & q & (lp & (Lp & Pp & Sp) & ->) & (lq & (Lq & Pq & Sq) & ->) & E1 & E2 & E3) (p' & q' & (lp' & (Lp' & Pp' & Sp') & ->) & (lq' & (Lq' & Pq' & Sq') & ->) & F1 & F2 & F3) Hth.
  exists (combination P (lin (1 - th) th lp lp')), (combination Q (lin (1 - th) th lq lq')).
  split; [exists (lin (1 - th) th lp lp'); split; [split; [rewrite lin_length by congruence; exact Lp|split; [apply lin_pos; (lra || assumption)|rewrite lin_rsum by congruence; rewrite Sp, Sp'; ring]]|reflexivity]|].
  split; [exists (lin (1 - th) th lq lq'); split; [split; [rewrite lin_length by congruence; exact Lq|split; [apply lin_pos; (lra || assumption)|rewrite lin_rsum by congruence; rewrite Sq, Sq'; ring]]|reflexivity]|].
  rewrite !combination_lin by congruence. cbn [vx vy vz]. rewrite E1, E2, E3, F1, F2, F3. split; [ring|split; ring].
Qed.
Lemma near_closest P Q x z t : difference P Q x -> norm2 x <= norm2 z + t -> closest (difference P Q) z -> apart2 x z <= t.
Proof.
  intros Hx Hle (Hz & Hmin).
  assert (G : norm2 z <= inner z x).
  { destruct (Rle_dec (norm2 z) (inner z x)) as [G|N]; [exact G|exfalso]. apply Rnot_le_lt in N. set (g := norm2 z - inner z x). assert (Hg : 0 < g) by (unfold g; lra).
    assert (Hy : forall th, 0 <= th <= 1 -> norm2 z <= norm2 z - 2 * th * g + th * th * norm2 (minus x z)).
    { intros th Hth. pose proof (Hmin _ (difference_convex P Q z x th Hz Hx Hth)) as M. eapply Rle_trans; [exact M|]. apply Req_le. unfold g, norm2, inner, minus. cbn [vx vy vz]. ring. }
    pose proof (norm2_nonneg (minus x z)) as Nn. destruct (Rle_dec (norm2 (minus x z)) g) as [A|A].
    - specialize (Hy 1 ltac:(lra)). lra.
    - set (th := g / norm2 (minus x z)). assert (Eth : th * norm2 (minus x z) = g) by (unfold th; field; lra). assert (0 < th) by (unfold th; apply pos_div; lra). assert (th <= 1) by nra.
      specialize (Hy th ltac:(lra)). nra. }
  assert (E : apart2 x z = norm2 x - 2 * inner z x + norm2 z) by (unfold apart2, norm2, inner; ring). lra.
Qed.
