(** The point of an interval, triangle or tetrahedron closest to the origin. *)
From Coq Require Import Reals Lra Psatz.
From Verif Require Import Base BaseProofs GenerationSpec Gjk GjkSpec.
Open Scope R_scope.

(** ** Sums *)
Lemma rsum_cons a l : rsum (a :: l) = a + rsum l.
Proof. reflexivity. Qed.
Lemma comb_cons {A} (f : A -> R) a s c l : comb f (a :: s) (c :: l) = f a * c + comb f s l.
Proof. reflexivity. Qed.
Lemma comb_nil {A} (f : A -> R) l : comb f [] l = 0.
Proof. reflexivity. Qed.
Lemma comb_const {A} (f : A -> R) k s l : length l = length s -> (forall a, In a s -> f a = k) -> comb f s l = k * rsum l.
Proof.
  revert l. induction s as [|a s IH]; intros [|c l] Hl H; try discriminate Hl.
  - cbn. ring.
  - rewrite comb_cons, rsum_cons, (H a (or_introl eq_refl)), (IH l); [ring|cbn in Hl; lia|intros b Hb; apply H; right; exact Hb].
Qed.
Lemma comb_lower {A} (f : A -> R) k s l : length l = length s -> (forall a, In a l -> 0 <= a) -> (forall a, In a s -> k <= f a) -> k * rsum l <= comb f s l.
Proof.
  revert l. induction s as [|a s IH]; intros [|c l] Hl Hp H; try discriminate Hl.
  - cbn. lra.
  - rewrite comb_cons, rsum_cons. assert (k * rsum l <= comb f s l) by (apply IH; [cbn in Hl; lia|intros b Hb; apply Hp; right; exact Hb|intros b Hb; apply H; right; exact Hb]).
    assert (0 <= c) by (apply Hp; left; reflexivity). assert (k <= f a) by (apply H; left; reflexivity). nra.
Qed.
(** Equality in the estimate: corners with a positive weight have the value [k]. *)
Lemma comb_tight {A} (f : A -> R) k s l : length l = length s -> (forall a, In a l -> 0 <= a) -> (forall a, In a s -> k <= f a) -> comb f s l = k * rsum l ->
  forall i a c, nth_error s i = Some a -> nth_error l i = Some c -> 0 < c -> f a = k.
Proof.
  revert l. induction s as [|a s IH]; intros [|c l] Hl Hp H E; try discriminate Hl; [intros [|i] ? ? Hi; discriminate|].
  rewrite comb_cons, rsum_cons in E. cbn in Hl.
  assert (L1 : k * rsum l <= comb f s l) by (apply comb_lower; [lia|intros b Hb; apply Hp; right; exact Hb|intros b Hb; apply H; right; exact Hb]).
  assert (L2 : 0 <= c) by (apply Hp; left; reflexivity). assert (L3 : k <= f a) by (apply H; left; reflexivity).
  assert (E1 : comb f s l = k * rsum l) by nra. assert (E2 : (f a - k) * c = 0) by nra.
  intros [|i] b e Hi Hc Hpos.
  - injection Hi as <-. injection Hc as <-. nra.
  - apply (IH l ltac:(lia) (fun b Hb => Hp b (or_intror Hb)) (fun b Hb => H b (or_intror Hb)) E1 i b e Hi Hc Hpos).
Qed.
Lemma comb_app {A} (f : A -> R) s1 s2 l1 l2 : length l1 = length s1 -> comb f (s1 ++ s2) (l1 ++ l2) = comb f s1 l1 + comb f s2 l2.
Proof.
  revert l1. induction s1 as [|a s1 IH]; intros [|c l1] Hl; try discriminate Hl; cbn [app].
  - rewrite comb_nil. lra.
  - rewrite !comb_cons, IH by (cbn in Hl; lia). lra.
Qed.
Lemma rsum_app l1 l2 : rsum (l1 ++ l2) = rsum l1 + rsum l2.
Proof. induction l1 as [|a l IH]; cbn [app]; [cbn; lra|]. rewrite !rsum_cons, IH. lra. Qed.
Definition lin (al be : R) (l m : list R) : list R := map (fun ab => al * fst ab + be * snd ab) (combine l m).
Lemma lin_length al be l m : length l = length m -> length (lin al be l m) = length l.
Proof. intro H. unfold lin. rewrite map_length, combine_length. lia. Qed.
Lemma lin_rsum al be l m : length l = length m -> rsum (lin al be l m) = al * rsum l + be * rsum m.
Proof.
  revert m. induction l as [|a l IH]; intros [|b m] H; try discriminate H; [cbn; lra|]. unfold lin in *. cbn [combine map fst snd]. rewrite !rsum_cons, IH by (cbn in H; lia). lra.
Qed.
Lemma lin_comb {A} (f : A -> R) al be s l m : length l = length s -> length m = length s -> comb f s (lin al be l m) = al * comb f s l + be * comb f s m.
Proof.
  revert l m. induction s as [|a s IH]; intros [|c l] [|e m] H H'; try discriminate H; try discriminate H'; [cbn; lra|]. unfold lin in *. cbn [combine map fst snd].
  rewrite !comb_cons, IH by (cbn in H, H'; lia). lra.
Qed.

(** ** Vectors *)
Lemma vec_ext a b : vx a = vx b -> vy a = vy b -> vz a = vz b -> a = b.
Proof. destruct a, b. cbn. intros -> -> ->. reflexivity. Qed.
Lemma inner_comm a b : inner a b = inner b a.
Proof. unfold inner. ring. Qed.
Lemma inner_minus a b x : inner x (minus a b) = inner x a - inner x b.
Proof. unfold inner, minus. cbn. ring. Qed.
Lemma comb_scale {A} (f : A -> R) k s l : comb (fun a => k * f a) s l = k * comb f s l.
Proof.
  revert l. induction s as [|a s IH]; intros [|c l]; rewrite ?comb_nil; try (cbn; lra). rewrite !comb_cons, IH. lra.
Qed.
Lemma comb_plus {A} (f g : A -> R) s l : comb (fun a => f a + g a) s l = comb f s l + comb g s l.
Proof.
  revert l. induction s as [|a s IH]; intros [|c l]; rewrite ?comb_nil; try (cbn; lra). rewrite !comb_cons, IH. lra.
Qed.
Lemma inner_comb x s l : inner x (combination s l) = comb (inner x) s l.
Proof.
  unfold combination, inner at 1. cbn [vx vy vz]. rewrite <- !comb_scale, <- !comb_plus. reflexivity.
Qed.
Lemma combination_lin s al be l m : length l = length s -> length m = length s ->
  combination s (lin al be l m) = mkV (al * vx (combination s l) + be * vx (combination s m)) (al * vy (combination s l) + be * vy (combination s m))
    (al * vz (combination s l) + be * vz (combination s m)).
Proof. intros H H'. unfold combination. cbn [vx vy vz]. rewrite !lin_comb by assumption. reflexivity. Qed.
Lemma norm2_nonneg a : 0 <= norm2 a.
Proof. unfold norm2, inner. nra. Qed.
Lemma norm2_zero a : norm2 a = 0 -> a = mkV 0 0 0.
Proof. unfold norm2, inner. intro H. apply vec_ext; cbn; nra. Qed.

Lemma minus_zero a b : minus a b = mkV 0 0 0 -> a = b.
Proof. unfold minus. intro E. injection E as E1 E2 E3. apply vec_ext; lra. Qed.

(** ** The foot of the perpendicular to the hull of independent points *)
Lemma independent_tail a s : independent (a :: s) -> independent s.
Proof.
  intros H c Hl Hs Hc e He. apply (H (0 :: c)); [cbn; lia|rewrite rsum_cons; lra| |right; exact He].
  rewrite <- Hc. unfold combination. rewrite !comb_cons. f_equal; ring.
Qed.
Lemma foot_exists s : independent s -> s <> [] -> forall q, exists t, length t = length s /\ rsum t = 1 /\
  forall a b, In a s -> In b s -> inner (minus q (combination s t)) (minus a b) = 0.
Proof.
  induction s as [|a s IH]; intros Hi Hn q; [contradiction|]. destruct s as [|b s].
  - exists [1]. split; [reflexivity|]. split; [cbn; ring|]. intros c e [<-|[]] [<-|[]]. unfold inner, minus. cbn. ring.
  - set (s' := b :: s) in *. assert (Hi' := independent_tail a s' Hi). specialize (IH Hi' ltac:(discriminate)).
    destruct (IH a) as (rho & Lr & Sr & Or). destruct (IH q) as (t0 & L0 & S0 & O0). set (n := minus a (combination s' rho)) in *.
    assert (Hn0 : norm2 n <> 0).
    { intro E. apply norm2_zero in E. assert (E1 : 1 = 0); [|lra]. apply (Hi (1 :: map Ropp rho)); [cbn [length]; rewrite map_length; lia| | |left; reflexivity].
      - rewrite rsum_cons. assert (rsum (map Ropp rho) = - rsum rho) by (clear; induction rho as [|x l IH]; [cbn; lra|cbn [map]; rewrite !rsum_cons, IH; lra]). lra.
      - assert (G : forall f : vec -> R, comb f s' (map Ropp rho) = - comb f s' rho).
        { intro f. clear - rho. revert rho. induction s' as [|x l IH]; intros [|y r]; rewrite ?comb_nil; try (cbn; lra). cbn [map]. rewrite !comb_cons, IH. lra. }
        rewrite <- E. unfold n, combination, minus. cbn [vx vy vz]. rewrite !comb_cons, !G. f_equal; ring. }
    set (al := inner (minus q (combination s' t0)) n / norm2 n). exists (al :: lin 1 (- al) t0 rho).
    assert (Et : combination (a :: s') (al :: lin 1 (- al) t0 rho) = mkV (vx (combination s' t0) + al * vx n) (vy (combination s' t0) + al * vy n) (vz (combination s' t0) + al * vz n)).
    { unfold combination at 1. rewrite !comb_cons, !lin_comb by assumption. unfold n, minus, combination. cbn [vx vy vz]. f_equal; ring. }
    split; [cbn [length]; rewrite lin_length by congruence; lia|]. split; [rewrite rsum_cons, lin_rsum by congruence; rewrite S0, Sr; ring|].
    rewrite Et. set (t := mkV _ _ _).
    assert (D : forall y, inner (minus q t) y = inner (minus q (combination s' t0)) y - al * inner n y) by (intro y; unfold inner, minus, t; cbn [vx vy vz]; ring).
    assert (Dn : inner (minus q t) n = 0) by (rewrite D; unfold al; fold (norm2 n); field; exact Hn0).
    assert (Ds : forall c e, In c s' -> In e s' -> inner (minus q t) (minus c e) = 0) by (intros c e Hc He; rewrite D, (O0 c e Hc He), (Or c e Hc He); ring).
    assert (Da : forall c, In c s' -> inner (minus q t) (minus a c) = 0).
    { intros c Hc. assert (E : inner (minus q t) (combination s' rho) = inner (minus q t) c).
      { rewrite inner_comb. rewrite (comb_const _ (inner (minus q t) c)); [rewrite Sr; ring|exact Lr|]. intros e He. pose proof (Ds e c He Hc) as H. rewrite inner_minus in H. lra. }
      unfold n in Dn. rewrite inner_minus in Dn. rewrite inner_minus. lra. }
    intros c e [<-|Hc] [<-|He].
    + rewrite inner_minus. ring.
    + apply Da, He.
    + pose proof (Da c Hc) as H. rewrite inner_minus in H. rewrite inner_minus. lra.
    + apply Ds; assumption.
Qed.
Lemma foot_origin s : independent s -> s <> [] -> exists t, length t = length s /\ rsum t = 1 /\
  forall a, In a s -> inner (combination s t) a = norm2 (combination s t).
Proof.
  intros Hi Hn. destruct (foot_exists s Hi Hn (mkV 0 0 0)) as (t & L & S & O). exists t. split; [exact L|]. split; [exact S|]. intros a Ha.
  unfold norm2. rewrite inner_comb, (comb_const _ (inner (combination s t) a)); [rewrite S; ring|exact L|]. intros b Hb. pose proof (O a b Ha Hb) as H.
  rewrite inner_minus in H. assert (E : forall y, inner (minus (mkV 0 0 0) (combination s t)) y = - inner (combination s t) y) by (intro y; unfold inner, minus; cbn; ring).
  rewrite !E in H. lra.
Qed.

(** ** Moving towards it until a weight vanishes *)
Lemma move_pairs (ps : list (R * R)) : (forall a t, In (a, t) ps -> 0 <= a) ->
  exists th, 0 <= th <= 1 /\ (forall a t, In (a, t) ps -> 0 <= (1 - th) * a + th * t) /\
    (th = 1 \/ exists a t, In (a, t) ps /\ (1 - th) * a + th * t = 0).
Proof.
  induction ps as [|(a, t) ps IH]; intro H.
  - exists 1. split; [lra|]. split; [intros ? ? []|left; reflexivity].
  - destruct IH as (th & H1 & H2 & H3); [intros b u Hb; apply (H b u); right; exact Hb|].
    assert (Ha : 0 <= a) by (apply (H a t); left; reflexivity).
    destruct (Rle_dec 0 ((1 - th) * a + th * t)) as [G|G].
    + exists th. split; [exact H1|]. split; [intros b u [E|Hb]; [injection E as <- <-; exact G|apply H2, Hb]|].
      destruct H3 as [->|(b & u & Hb & E)]; [left; reflexivity|right; exists b, u; split; [right; exact Hb|exact E]].
    + apply Rnot_le_lt in G. assert (Ht : t < 0) by (apply Rnot_le_lt; intro; assert (0 <= (1 - th) * a) by (apply Rmult_le_pos; lra); assert (0 <= th * t) by (apply Rmult_le_pos; lra); lra). assert (Hp : 0 < a - t) by lra. set (x := a / (a - t)).
      assert (Ex : x * (a - t) = a) by (unfold x; field; lra). assert (X0 : 0 <= x) by (unfold x; apply Rmult_le_pos; [exact Ha|apply Rlt_le, Rinv_0_lt_compat; lra]).
      assert (X1 : x < th) by (apply Rmult_lt_reg_r with (a - t); [exact Hp|lra]).
      exists x. split; [lra|]. assert (Z : (1 - x) * a + x * t = 0) by nra. split; [|right; exists a, t; split; [left; reflexivity|exact Z]].
      intros b u [E|Hb]; [injection E as <- <-; lra|]. pose proof (H2 b u Hb) as G2. assert (B0 : 0 <= b) by (apply (H b u); right; exact Hb).
      assert (Q : th * ((1 - x) * b + x * u) = (th - x) * b + x * ((1 - th) * b + th * u)) by ring.
      assert (0 < th) by lra. assert (0 <= (th - x) * b) by (apply Rmult_le_pos; lra). assert (0 <= x * ((1 - th) * b + th * u)) by (apply Rmult_le_pos; lra). nra.
Qed.
Lemma combine_in_l {A B} (l : list A) (m : list B) i a b : nth_error l i = Some a -> nth_error m i = Some b -> In (a, b) (combine l m).
Proof.
  revert m i. induction l as [|x l IH]; intros [|y m] [|i] H H'; try discriminate; cbn in *; [left; congruence|right; eapply IH; eassumption].
Qed.
Lemma move_weights l t : length l = length t -> (forall a, In a l -> 0 <= a) -> (exists a, In a t /\ a < 0) ->
  exists th, 0 <= th <= 1 /\ (forall a, In a (lin (1 - th) th l t) -> 0 <= a) /\ exists i, nth_error (lin (1 - th) th l t) i = Some 0.
Proof.
  intros Hl Hp (n & Hn & Hneg). destruct (move_pairs (combine l t)) as (th & H1 & H2 & H3); [intros a u Hin; apply Hp; eapply in_combine_l; exact Hin|].
  exists th. split; [exact H1|]. split.
  - intros a Ha. unfold lin in Ha. apply in_map_iff in Ha as ((x, y) & <- & Hin). cbn [fst snd]. apply (H2 x y Hin).
  - destruct H3 as [->|(a & u & Hin & E)].
    + exfalso. apply In_nth_error in Hn as (i & Hi). assert (Hx : exists x, nth_error l i = Some x) by (apply nth_error_lt; rewrite Hl; eapply nth_error_bound; exact Hi).
      destruct Hx as (x & Hx). pose proof (H2 x n (combine_in_l _ _ _ _ _ Hx Hi)). lra.
    + apply (in_map (fun ab => (1 - th) * fst ab + th * snd ab)) in Hin. cbn [fst snd] in Hin. rewrite E in Hin. apply In_nth_error in Hin. exact Hin.
Qed.

(** ** Faces *)
Definition face (i : nat) (s : list vec) : list vec := firstn i s ++ skipn (S i) s.
Lemma nth_split_at {A} (l : list A) i a : nth_error l i = Some a -> l = firstn i l ++ a :: skipn (S i) l /\ length (firstn i l) = i.
Proof.
  revert i. induction l as [|b l IH]; intros [|i] H; try discriminate H; cbn in *; [injection H as <-; auto|]. destruct (IH i H) as (E & L). split; [f_equal; exact E|lia].
Qed.
Lemma face_comb {A} (f : A -> R) s i a l1 l2 : nth_error s i = Some a -> length l1 = i -> comb f (firstn i s ++ skipn (S i) s) (l1 ++ l2) = comb f s (l1 ++ 0 :: l2).
Proof.
  intros Ha Hl. destruct (nth_split_at s i a Ha) as (E & L). rewrite E at 3. rewrite !comb_app by lia. rewrite comb_cons. lra.
Qed.
Lemma face_hull i s y : (i < length s)%nat -> hull (face i s) y -> hull s y.
Proof.
  intros Hi (l & (L & Hp & S) & ->). destruct (nth_error_lt s i Hi) as (a & Ha). unfold face in L. rewrite app_length, firstn_length, skipn_length in L.
  assert (E : exists l1 l2, l = l1 ++ l2 /\ length l1 = i) by (exists (firstn i l), (skipn i l); split; [symmetry; apply firstn_skipn|rewrite firstn_length; lia]).
  destruct E as (l1 & l2 & -> & L1). rewrite app_length in L. exists (l1 ++ 0 :: l2). split; [split; [|split]|].
  - rewrite app_length. cbn [length]. lia.
  - intros b Hb. apply in_app_iff in Hb as [Hb|[<-|Hb]]; [apply Hp, in_app_iff; auto|lra|apply Hp, in_app_iff; auto].
  - rewrite rsum_app, rsum_cons. rewrite rsum_app in S. lra.
  - unfold combination, face. rewrite !(face_comb _ s i a) by assumption. reflexivity.
Qed.
Lemma hull_face i s l : simplex_weights (length s) l -> nth_error l i = Some 0 -> hull (face i s) (combination s l).
Proof.
  intros (L & Hp & S) H0. assert (Hi : (i < length s)%nat) by (rewrite <- L; eapply nth_error_bound; exact H0). destruct (nth_error_lt s i Hi) as (a & Ha).
  assert (E : exists l1 l2, l = l1 ++ 0 :: l2 /\ length l1 = i) by (exists (firstn i l), (skipn (Datatypes.S i) l); apply nth_split_at; exact H0).
  destruct E as (l1 & l2 & -> & L1). rewrite app_length in L. cbn [length] in L. exists (l1 ++ l2). split; [split; [|split]|].
  - unfold face. rewrite !app_length, firstn_length, skipn_length. lia.
  - intros b Hb. apply Hp. apply in_app_iff in Hb as [Hb|Hb]; apply in_app_iff; [auto|right; right; exact Hb].
  - rewrite rsum_app, rsum_cons in S. rewrite rsum_app. lra.
  - unfold combination, face. rewrite !(face_comb _ s i a) by assumption. reflexivity.
Qed.
Lemma face_independent i s : (i < length s)%nat -> independent s -> independent (face i s).
Proof.
  intros Hi H c L S C e He. destruct (nth_error_lt s i Hi) as (a & Ha). unfold face in L. rewrite app_length, firstn_length, skipn_length in L.
  assert (E : exists l1 l2, c = l1 ++ l2 /\ length l1 = i) by (exists (firstn i c), (skipn i c); split; [symmetry; apply firstn_skipn|rewrite firstn_length; lia]).
  destruct E as (l1 & l2 & -> & L1). rewrite app_length in L. apply (H (l1 ++ 0 :: l2)).
  - rewrite app_length. cbn [length]. lia.
  - rewrite rsum_app, rsum_cons. rewrite rsum_app in S. lra.
  - rewrite <- C. unfold combination, face. rewrite !(face_comb _ s i a) by assumption. reflexivity.
  - apply in_app_iff in He as [He|He]; apply in_app_iff; [auto|right; right; exact He].
Qed.

(** ** The closest point *)
Lemma foot_closer s l t th : simplex_weights (length s) l -> length t = length s -> rsum t = 1 ->
  (forall a, In a s -> inner (combination s t) a = norm2 (combination s t)) -> 0 <= th <= 1 ->
  norm2 (combination s (lin (1 - th) th l t)) <= norm2 (combination s l) /\ norm2 (combination s t) <= norm2 (combination s l).
Proof.
  intros (L & Hp & S) Lt St Ht Hth. set (y := combination s l). set (x := combination s t).
  assert (E : inner x y = norm2 x) by (unfold y; rewrite inner_comb, (comb_const _ (norm2 x)); [rewrite S; ring|exact L|exact Ht]).
  assert (D : 0 <= norm2 y - norm2 x).
  { assert (Q : norm2 (minus y x) = norm2 y - 2 * inner x y + norm2 x) by (unfold norm2, inner, minus; cbn [vx vy vz]; ring). pose proof (norm2_nonneg (minus y x)). lra. }
  split; [|lra]. rewrite combination_lin by congruence. fold x y.
  assert (Q : norm2 (mkV ((1 - th) * vx y + th * vx x) ((1 - th) * vy y + th * vy x) ((1 - th) * vz y + th * vz x)) =
    norm2 y - (2 * th - th * th) * (norm2 y - norm2 x) + 2 * th * (1 - th) * (inner x y - norm2 x)) by (unfold norm2, inner; cbn [vx vy vz]; ring).
  rewrite Q, E. assert (0 <= 2 * th - th * th) by nra. assert (0 <= (2 * th - th * th) * (norm2 y - norm2 x)) by (apply Rmult_le_pos; assumption). lra.
Qed.
Lemma neg_dec (t : list R) : (forall a, In a t -> 0 <= a) \/ exists a, In a t /\ a < 0.
Proof.
  induction t as [|a t [H|(b & Hb & Hn)]]; [left; intros ? []| |right; exists b; split; [right; exact Hb|exact Hn]].
  destruct (Rlt_dec a 0) as [N|P]; [right; exists a; split; [left; reflexivity|exact N]|left]. intros b [<-|Hb]; [lra|apply H, Hb].
Qed.
Lemma closest_exists s : independent s -> s <> [] -> exists m, closest (hull s) m.
Proof.
  remember (length s) as n eqn:En. revert s En. induction n as [|n IH]; intros s En Hi Hn; [destruct s; [contradiction|discriminate]|].
  destruct n as [|n].
  - destruct s as [|a [|b s]]; try discriminate En. exists a. split.
    + exists [1]. split; [split; [reflexivity|split; [intros c [<-|[]]; lra|cbn; ring]]|]. apply vec_ext; cbn; ring.
    + intros y (l & (L & _ & S) & ->). destruct l as [|c [|e l]]; try discriminate L. cbn in S. assert (c = 1) by lra. subst c.
      apply Req_le. unfold norm2, inner, combination, comb, rsum. cbn. ring.
  - destruct (foot_origin s Hi Hn) as (t & Lt & St & Ht). destruct (neg_dec t) as [Hp|Hneg].
    + exists (combination s t). split; [exists t; split; [split; [exact Lt|split; [exact Hp|exact St]]|reflexivity]|].
      intros y (l & W & ->). apply (foot_closer s l t 0 W Lt St Ht). lra.
    + assert (G : forall k, (1 <= k <= length s)%nat -> exists m, (exists i, (i < k)%nat /\ hull (face i s) m) /\ forall i y, (i < k)%nat -> hull (face i s) y -> norm2 m <= norm2 y).
      { assert (F : forall i, (i < length s)%nat -> exists m, closest (hull (face i s)) m).
        { intros i Hl. assert (Lf : length (face i s) = S n) by (unfold face; rewrite app_length, firstn_length, skipn_length; lia).
          apply IH; [symmetry; exact Lf|apply face_independent; assumption|intro E; rewrite E in Lf; discriminate]. }
        induction k as [|k IHk]; intro Hk; [lia|]. destruct (F k ltac:(lia)) as (m & Hm & Hmin). destruct k as [|k].
        - exists m. split; [exists 0%nat; split; [lia|exact Hm]|]. intros i y Hl. assert (i = 0)%nat by lia. subst i. apply Hmin.
        - destruct (IHk ltac:(lia)) as (m' & (i' & Hi' & Hm') & Hmin'). destruct (Rle_dec (norm2 m') (norm2 m)) as [A|A].
          + exists m'. split; [exists i'; split; [lia|exact Hm']|]. intros i y Hl Hy. destruct (Nat.eq_dec i (S k)) as [->|N]; [pose proof (Hmin y Hy); lra|apply (Hmin' i y); [lia|exact Hy]].
          + exists m. split; [exists (S k); split; [lia|exact Hm]|]. intros i y Hl Hy. destruct (Nat.eq_dec i (S k)) as [->|N]; [apply Hmin, Hy|].
            pose proof (Hmin' i y ltac:(lia) Hy). lra. }
      destruct (G (length s) ltac:(lia)) as (m & (i & Hl & Hm) & Hmin). exists m. split; [apply (face_hull i); assumption|].
      intros y (l & W & ->). destruct W as (L & Hp & S). destruct (move_weights l t ltac:(congruence) Hp Hneg) as (th & Hth & Hpos & i0 & H0).
      assert (Hi0 : (i0 < length s)%nat) by (apply nth_error_bound in H0; rewrite lin_length in H0 by congruence; lia).
      apply Rle_trans with (norm2 (combination s (lin (1 - th) th l t))).
      * apply (Hmin i0 _ Hi0). apply hull_face; [|exact H0]. split; [rewrite lin_length by congruence; exact L|]. split; [exact Hpos|]. rewrite lin_rsum by congruence. rewrite S, St. ring.
      * apply foot_closer; try assumption. split; [exact L|split; assumption].
Qed.

(** ** Conditions for the closest point *)
Lemma closest_iff s l : simplex_weights (length s) l ->
  (closest (hull s) (combination s l) <-> forall a, In a s -> norm2 (combination s l) <= inner (combination s l) a).
Proof.
  intro W. set (x := combination s l). split.
  - intros (_ & Hmin) a Ha. destruct (Rle_dec (norm2 x) (inner x a)) as [G|N]; [exact G|exfalso]. apply Rnot_le_lt in N.
    assert (D : 0 < norm2 (minus a x)).
    { destruct (Req_dec (norm2 (minus a x)) 0) as [E|E]; [|pose proof (norm2_nonneg (minus a x)); lra]. exfalso. apply norm2_zero in E.
      assert (Ea := minus_zero a x E). subst a. unfold norm2 in N. lra. }
    (* move from x towards a *)
    assert (Hy : forall th, 0 <= th <= 1 -> norm2 x <= norm2 (mkV ((1 - th) * vx x + th * vx a) ((1 - th) * vy x + th * vy a) ((1 - th) * vz x + th * vz a))).
    { intros th Hth. apply Hmin. apply In_nth_error in Ha as (i & Hi). destruct W as (L & Hp & S).
      set (e := map (fun j => if Nat.eqb j i then 1 else 0) (seq 0 (length s))).
      assert (Hlt := nth_error_bound _ _ _ Hi).
      assert (Ge : forall (f : vec -> R), comb f s e = f a /\ rsum e = 1).
      { intro f. unfold e. clear - Hi. assert (G : forall b k, nth_error s k = Some a -> comb f s (map (fun j => if Nat.eqb j (b + k) then 1 else 0) (seq b (length s))) = f a
            /\ rsum (map (fun j => if Nat.eqb j (b + k) then 1 else 0) (seq b (length s))) = 1).
        { clear Hi. induction s as [|x s IH]; intros b [|k] Hk; try discriminate Hk; cbn [length seq map]; rewrite comb_cons, rsum_cons.
          - injection Hk as ->. rewrite Nat.add_0_r, Nat.eqb_refl.
            assert (Z : forall m, (b < m)%nat -> comb f s (map (fun j => if Nat.eqb j b then 1 else 0) (seq m (length s))) = 0 /\ rsum (map (fun j => if Nat.eqb j b then 1 else 0) (seq m (length s))) = 0).
            { clear. induction s as [|y s IH]; intros m Hm; [split; reflexivity|]. cbn [length seq map]. rewrite comb_cons, rsum_cons. destruct (Nat.eqb_spec m b); [lia|].
              destruct (IH (S m) ltac:(lia)) as (A & B). rewrite A, B. split; ring. }
            destruct (Z (S b) ltac:(lia)) as (A & B). rewrite A, B. split; ring.
          - destruct (Nat.eqb_spec b (b + S k)); [lia|]. destruct (IH (S b) k Hk) as (A & B). replace (b + S k)%nat with (S b + k)%nat by lia. rewrite A, B. split; ring. }
        exact (G 0%nat i Hi). }
      assert (Le : length e = length s) by (unfold e; rewrite map_length, seq_length; reflexivity).
      exists (lin (1 - th) th l e). split; [split; [rewrite lin_length by congruence; exact L|split]|].
      - intros b Hb. unfold lin in Hb. apply in_map_iff in Hb as ((u, w) & <- & Hin). cbn [fst snd]. assert (0 <= u) by (apply Hp; eapply in_combine_l; exact Hin).
        assert (0 <= w) by (apply in_combine_r in Hin; unfold e in Hin; apply in_map_iff in Hin as (j & <- & _); destruct (Nat.eqb j i); lra). nra.
      - rewrite lin_rsum by congruence. rewrite S, (proj2 (Ge vx)). ring.
      - rewrite combination_lin by congruence. fold x. unfold combination. cbn [vx vy vz]. rewrite !(proj1 (Ge _)). reflexivity. }
    set (g := norm2 x - inner x a) in *. assert (Hg : 0 < g) by (unfold g; lra).
    assert (Q : forall th, norm2 (mkV ((1 - th) * vx x + th * vx a) ((1 - th) * vy x + th * vy a) ((1 - th) * vz x + th * vz a)) = norm2 x - 2 * th * g + th * th * norm2 (minus a x))
      by (intro th; unfold g, norm2, inner, minus; cbn [vx vy vz]; ring).
    destruct (Rle_dec (norm2 (minus a x)) g) as [A|A].
    + specialize (Hy 1 ltac:(lra)). rewrite Q in Hy. lra.
    + set (th := g / norm2 (minus a x)). assert (Eth : th * norm2 (minus a x) = g) by (unfold th; field; lra).
      assert (0 < th) by (unfold th; apply Rdiv_lt_0_compat; lra). assert (th <= 1) by nra. specialize (Hy th ltac:(lra)). rewrite Q in Hy. nra.
  - intro H. split; [exists l; split; [exact W|reflexivity]|]. intros y (m & (L & Hp & S) & ->).
    assert (E : norm2 x <= inner x (combination s m)) by (rewrite inner_comb; replace (norm2 x) with (norm2 x * rsum m) by (rewrite S; ring); apply comb_lower; assumption).
    assert (Q : norm2 (minus (combination s m) x) = norm2 (combination s m) - 2 * inner x (combination s m) + norm2 x) by (unfold norm2, inner, minus; cbn [vx vy vz]; ring).
    pose proof (norm2_nonneg (minus (combination s m) x)). lra.
Qed.
Lemma closest_support s l : simplex_weights (length s) l -> closest (hull s) (combination s l) ->
  forall i a c, nth_error s i = Some a -> nth_error l i = Some c -> 0 < c -> inner (combination s l) a = norm2 (combination s l).
Proof.
  intros W H i a c Hi Hc Hp. pose proof (proj1 (closest_iff s l W) H) as K. destruct W as (L & Hpos & S).
  refine (comb_tight (inner (combination s l)) (norm2 (combination s l)) s l L Hpos K _ i a c Hi Hc Hp).
  rewrite <- inner_comb, S. unfold norm2. ring.
Qed.
