(** Bisection of simplices. *)
From Coq Require Import Reals Lra.
From Verif Require Import Base BaseProofs Algo AlgoProofs PlazaSpec.
Open Scope nat_scope.

(** ** Sums *)
Definition fsum (t : list nat) (f : nat -> R) : R := rsum (map f t).
Lemma fsum_cons a t f : fsum (a :: t) f = (f a + fsum t f)%R.
Proof. reflexivity. Qed.
Lemma fsum_ext t f g : (forall v, In v t -> f v = g v) -> fsum t f = fsum t g.
Proof.
  intro H. induction t as [|a t IH]; [reflexivity|]. rewrite !fsum_cons, IH by (intros; apply H; now right).
  rewrite (H a) by now left. reflexivity.
Qed.
Lemma fsum_plus t f g : fsum t (fun v => f v + g v)%R = (fsum t f + fsum t g)%R.
Proof. induction t as [|a t IH]; [cbn; lra|]. rewrite !fsum_cons, IH. lra. Qed.
Lemma fsum_minus t f g : fsum t (fun v => f v - g v)%R = (fsum t f - fsum t g)%R.
Proof. induction t as [|a t IH]; [cbn; lra|]. rewrite !fsum_cons, IH. lra. Qed.
Lemma fsum_map t r f : fsum (map r t) f = fsum t (fun v => f (r v)).
Proof. unfold fsum. now rewrite map_map. Qed.
Lemma fsum_zero t f : (forall v, In v t -> f v = 0%R) -> fsum t f = 0%R.
Proof. intro H. rewrite (fsum_ext t f (fun _ => 0%R) H). induction t as [|a t IH]; [reflexivity|]. rewrite fsum_cons, IH; [lra|]. intros; apply H; now right. Qed.
Lemma rsum_perm l l' : Permutation l l' -> rsum l = rsum l'.
Proof. unfold rsum. induction 1; cbn [fold_right] in *; lra. Qed.
Lemma fsum_perm t t' f : Permutation t t' -> fsum t f = fsum t' f.
Proof. intro H. apply rsum_perm. now apply Permutation_map. Qed.
Lemma fsum_one t a h : NoDup t -> In a t -> (forall v, In v t -> v <> a -> h v = 0%R) -> fsum t h = h a.
Proof.
  induction t as [|x t IH]; intros Hn Ha H; [destruct Ha|]. inversion Hn as [|? ? Hx Hn']; subst. rewrite fsum_cons. destruct Ha as [->|Ha].
  - rewrite fsum_zero; [lra|]. intros v Hv. apply H; [now right|]. intros ->. contradiction.
  - rewrite IH; [|assumption|assumption|intros; apply H; [now right|assumption]].
    rewrite (H x); [lra|now left|]. intros ->. contradiction.
Qed.
Lemma fsum_two t a b h k : NoDup t -> In a t -> In b t -> a <> b -> (forall v, In v t -> v <> a -> v <> b -> h v = k v) ->
  fsum t h = (fsum t k + (h a - k a) + (h b - k b))%R.
Proof.
  intros Hn Ha Hb Hab H.
  assert (E : fsum t (fun v => h v - k v)%R = ((h a - k a) + (h b - k b))%R).
  { rewrite (fsum_ext t _ (fun v => (if Nat.eq_dec v a then h v - k v else 0) + (if Nat.eq_dec v b then h v - k v else 0))%R).
    - rewrite fsum_plus. f_equal; [rewrite (fsum_one t a)|rewrite (fsum_one t b)]; try assumption.
      1,3: destruct (Nat.eq_dec _ _); [reflexivity|congruence].
      all: intros v _ Hne; destruct (Nat.eq_dec v _); [congruence|reflexivity].
    - intros v Hv. destruct (Nat.eq_dec v a), (Nat.eq_dec v b); try lra; [congruence|]. rewrite H by assumption. lra. }
  rewrite fsum_minus in E. lra.
Qed.

(** ** Weights as functions *)
Lemma weights_fun (t : list nat) : NoDup t -> forall w : list R, length w = length t -> exists f, map f t = w.
Proof.
  induction t as [|x t IH]; intros Hn [|a w] L; cbn in L; try discriminate.
  - exists (fun _ => 0%R). reflexivity.
  - inversion Hn as [|? ? Hx Hn']; subst. destruct (IH Hn' w) as (f & Ef); [lia|].
    exists (fun v => if Nat.eq_dec v x then a else f v). cbn. f_equal; [destruct (Nat.eq_dec x x); [reflexivity|congruence]|].
    rewrite <- Ef. apply map_ext_in. intros v Hv. destruct (Nat.eq_dec v x) as [->|]; [contradiction|reflexivity].
Qed.

Section Place.
Variable pl : nat -> nat -> R.
Notation pts t := (map pl t).

Lemma comb_fun t f c : comb (map f t) (pts t) c = fsum t (fun v => f v * pl v c)%R.
Proof. unfold comb, fsum, rsum. induction t as [|x t IH]; [reflexivity|]. cbn in *. now rewrite IH. Qed.

Lemma in_simplex_fun t x : NoDup t -> in_simplex (pts t) x <->
  exists f, (forall v, In v t -> (0 <= f v)%R) /\ fsum t f = 1%R /\ forall c, x c = fsum t (fun v => f v * pl v c)%R.
Proof.
  intro Hn. split.
  - intros (w & L & Hw & Hs & Hx). rewrite map_length in L. destruct (weights_fun t Hn w L) as (f & <-). exists f. split; [|split].
    + intros v Hv. apply Hw. now apply in_map.
    + exact Hs.
    + intro c. now rewrite Hx, comb_fun.
  - intros (f & Hf & Hs & Hx). exists (map f t). split; [now rewrite !map_length|]. split; [|split].
    + intros a Ha. apply in_map_iff in Ha as (v & <- & Hv). auto.
    + exact Hs.
    + intro c. now rewrite comb_fun.
Qed.
Lemma in_interior_fun t x : NoDup t -> in_interior (pts t) x <->
  exists f, (forall v, In v t -> (0 < f v)%R) /\ fsum t f = 1%R /\ forall c, x c = fsum t (fun v => f v * pl v c)%R.
Proof.
  intro Hn. split.
  - intros (w & L & Hw & Hs & Hx). rewrite map_length in L. destruct (weights_fun t Hn w L) as (f & <-). exists f. split; [|split].
    + intros v Hv. apply Hw. now apply in_map.
    + exact Hs.
    + intro c. now rewrite Hx, comb_fun.
  - intros (f & Hf & Hs & Hx). exists (map f t). split; [now rewrite !map_length|]. split; [|split].
    + intros a Ha. apply in_map_iff in Ha as (v & <- & Hv). auto.
    + exact Hs.
    + intro c. now rewrite comb_fun.
Qed.
Lemma independent_fun t : NoDup t -> independent (pts t) <->
  forall f, fsum t f = 0%R -> (forall c, fsum t (fun v => f v * pl v c)%R = 0%R) -> forall v, In v t -> f v = 0%R.
Proof.
  intro Hn. split.
  - intros H f Hs Hx v Hv. apply (H (map f t)); [now rewrite !map_length|exact Hs| |now apply in_map]. intro c. now rewrite comb_fun.
  - intros H w L Hs Hx a Ha. rewrite map_length in L. destruct (weights_fun t Hn w L) as (f & <-). apply in_map_iff in Ha as (v & <- & Hv).
    apply H; [exact Hs| |exact Hv]. intro c. now rewrite <- comb_fun.
Qed.

(** ** Order does not matter *)
Definition equiv (t t' : list nat) : Prop :=
  (forall x, in_simplex (pts t) x <-> in_simplex (pts t') x) /\
  (forall x, in_interior (pts t) x <-> in_interior (pts t') x) /\ (independent (pts t) <-> independent (pts t')).
Lemma equiv_perm t t' : NoDup t -> Permutation t t' -> equiv t t'.
Proof.
  intros Hn Hp. pose proof (Permutation_NoDup Hp Hn) as Hn'.
  assert (Hi : forall v, In v t <-> In v t') by (intro; split; apply Permutation_in; [|apply Permutation_sym]; exact Hp).
  split; [|split].
  - intro x. rewrite !in_simplex_fun by assumption. split; intros (f & A & B & C); exists f; (split; [intros v Hv; apply A, Hi, Hv|]);
      (split; [rewrite <- B; apply fsum_perm|intro c; rewrite C; apply fsum_perm]); auto using Permutation_sym.
  - intro x. rewrite !in_interior_fun by assumption. split; intros (f & A & B & C); exists f; (split; [intros v Hv; apply A, Hi, Hv|]);
      (split; [rewrite <- B; apply fsum_perm|intro c; rewrite C; apply fsum_perm]); auto using Permutation_sym.
  - rewrite !independent_fun by assumption. split; intros H f A B v Hv; (apply H; [rewrite <- A; apply fsum_perm|intro c; rewrite <- (B c); apply fsum_perm|apply Hi, Hv]); auto using Permutation_sym.
Qed.

(** ** Tilings of simplices given by labels *)
Definition apart (t t' : list nat) : Prop := forall x, ~ (in_interior (pts t) x /\ in_interior (pts t') x).
Record tl (L : list (list nat)) (t : list nat) : Prop := {
  tl_cover : forall x, in_simplex (pts t) x <-> exists c, In c L /\ in_simplex (pts c) x;
  tl_inner : forall x c, In c L -> in_interior (pts c) x -> in_interior (pts t) x;
  tl_nondeg : independent (pts t) -> forall c, In c L -> independent (pts c);
  tl_apart : independent (pts t) -> ForallOrdPairs apart L
}.
Lemma tl_tiles L t : tl L t -> tiles (map (map pl) L) (pts t).
Proof.
  intros [A B C D]. split.
  - intro x. rewrite A. split.
    + intros (c & Hc & Hx). exists (pts c). split; [now apply in_map|exact Hx].
    + intros (ps & Hps & Hx). apply in_map_iff in Hps as (c & <- & Hc). eauto.
  - intros Hi ps Hps. apply in_map_iff in Hps as (c & <- & Hc). auto.
  - intro Hi. specialize (D Hi). clear - D. induction D as [|c L Hc D IH]; cbn; constructor; [|exact IH].
    apply Forall_forall. intros ps Hps. apply in_map_iff in Hps as (c' & <- & Hc'). rewrite Forall_forall in Hc. exact (Hc c' Hc').
Qed.
Lemma tl_self t : tl [t] t.
Proof.
  split.
  - intro x. split; [intro H; exists t; split; [now left|exact H]|intros (c & [<-|[]] & H); exact H].
  - intros x c [<-|[]] H. exact H.
  - intros H c [<-|[]]. exact H.
  - intros _. repeat constructor.
Qed.
Lemma FOP_app {A} (R : A -> A -> Prop) l l' : ForallOrdPairs R l -> ForallOrdPairs R l' -> (forall x y, In x l -> In y l' -> R x y) ->
  ForallOrdPairs R (l ++ l').
Proof.
  intros H H' HR. induction H as [|x l Hx H IH]; cbn; [exact H'|]. constructor.
  - apply Forall_app. split; [exact Hx|]. apply Forall_forall. intros y Hy. apply HR; [now left|exact Hy].
  - apply IH. intros; apply HR; [now right|assumption].
Qed.
Lemma tl_flat L t (h : list nat -> list (list nat)) : tl L t -> (forall c, In c L -> tl (h c) c) -> tl (flat_map h L) t.
Proof.
  intros HL Hh. split.
  - intro x. rewrite (tl_cover _ _ HL x). split.
    + intros (c & Hc & Hx). apply (tl_cover _ _ (Hh c Hc)) in Hx as (d & Hd & Hx). exists d. split; [|exact Hx]. apply in_flat_map. eauto.
    + intros (d & Hd & Hx). apply in_flat_map in Hd as (c & Hc & Hd). exists c. split; [exact Hc|]. apply (tl_cover _ _ (Hh c Hc)). eauto.
  - intros x d Hd Hx. apply in_flat_map in Hd as (c & Hc & Hd). apply (tl_inner _ _ HL x c Hc). exact (tl_inner _ _ (Hh c Hc) x d Hd Hx).
  - intros Hi d Hd. apply in_flat_map in Hd as (c & Hc & Hd). exact (tl_nondeg _ _ (Hh c Hc) (tl_nondeg _ _ HL Hi c Hc) d Hd).
  - intro Hi. pose proof (tl_apart _ _ HL Hi) as HA. pose proof (fun c Hc => tl_apart _ _ (Hh c Hc) (tl_nondeg _ _ HL Hi c Hc)) as HB.
    pose proof (fun c Hc => tl_inner _ _ (Hh c Hc)) as HI. clear - HA HB HI.
    induction HA as [|c L Hc HA IH]; cbn; [constructor|]. apply FOP_app.
    + apply HB. now left.
    + apply IH; intros; [apply HB; now right|eapply HI; [right|..]; eassumption].
    + intros d d' Hd Hd' x (A & B). apply in_flat_map in Hd' as (c' & Hc' & Hd'). rewrite Forall_forall in Hc.
      apply (Hc c' Hc' x). split; [exact (HI c (or_introl eq_refl) x d Hd A)|exact (HI c' (or_intror Hc') x d' Hd' B)].
Qed.
Lemma FOP_perm {A} (R : A -> A -> Prop) l l' : (forall x y, R x y -> R y x) -> Permutation l l' -> ForallOrdPairs R l -> ForallOrdPairs R l'.
Proof.
  intros HR Hp. induction Hp as [|x l l' Hp IH|x y l|l l' l'' Hp IH Hp' IH']; intro H.
  - constructor.
  - inversion H; subst. constructor; [eapply Permutation_Forall; eauto|auto].
  - inversion H as [|? ? H1 H2]; subst. inversion H2 as [|? ? H3 H4]; subst. inversion H1; subst. constructor; [constructor; auto|constructor; auto].
  - auto.
Qed.
Lemma apart_sym t t' : apart t t' -> apart t' t.
Proof. intros H x (A & B). apply (H x). auto. Qed.
Lemma tl_perm L L' t : Permutation L L' -> tl L t -> tl L' t.
Proof.
  intros Hp HL. assert (Hi : forall c, In c L' <-> In c L) by (intro; split; apply Permutation_in; [apply Permutation_sym|]; exact Hp). split.
  - intro x. rewrite (tl_cover _ _ HL x). split; intros (c & Hc & Hx); exists c; (split; [apply Hi, Hc|exact Hx]).
  - intros x c Hc. apply (tl_inner _ _ HL). now apply Hi.
  - intros Hn c Hc. apply (tl_nondeg _ _ HL Hn). now apply Hi.
  - intro Hn. exact (FOP_perm _ _ _ apart_sym Hp (tl_apart _ _ HL Hn)).
Qed.
Lemma tl_equiv L L' t : Forall2 equiv L L' -> tl L t -> tl L' t.
Proof.
  intros HE HL.
  assert (H1 : forall c', In c' L' -> exists c, In c L /\ equiv c c').
  { clear - HE. induction HE as [|c c' L L' Hc HE IH]; intros d Hd; [destruct Hd|]. destruct Hd as [<-|Hd]; [exists c; split; [now left|exact Hc]|].
    destruct (IH d Hd) as (e & He & X). exists e. split; [now right|exact X]. }
  assert (H2 : forall c, In c L -> exists c', In c' L' /\ equiv c c').
  { clear - HE. induction HE as [|c c' L L' Hc HE IH]; intros d Hd; [destruct Hd|]. destruct Hd as [<-|Hd]; [exists c'; split; [now left|exact Hc]|].
    destruct (IH d Hd) as (e & He & X). exists e. split; [now right|exact X]. }
  split.
  - intro x. rewrite (tl_cover _ _ HL x). split; intros (c & Hc & Hx).
    + destruct (H2 c Hc) as (c' & Hc' & E & _). exists c'. split; [exact Hc'|]. now apply E.
    + destruct (H1 c Hc) as (c' & Hc' & E & _). exists c'. split; [exact Hc'|]. now apply E.
  - intros x c Hc Hx. destruct (H1 c Hc) as (c' & Hc' & _ & E & _). apply (tl_inner _ _ HL x c' Hc'). now apply E.
  - intros Hn c Hc. destruct (H1 c Hc) as (c' & Hc' & _ & _ & E). apply E, (tl_nondeg _ _ HL Hn), Hc'.
  - intro Hn. pose proof (tl_apart _ _ HL Hn) as HA. clear - HA HE. revert HA. induction HE as [|c c' L L' Hc HE IH]; intro HA; [constructor|].
    inversion HA as [|? ? HA1 HA2]; subst. constructor; [|auto]. apply Forall_forall. intros d' Hd'.
    assert (exists d, In d L /\ equiv d d') as (d & Hd & Ed).
    { clear - HE Hd'. induction HE as [|e e' L L' He HE IH]; [destruct Hd'|]. destruct Hd' as [<-|Hd']; [exists e; split; [now left|exact He]|].
      destruct (IH Hd') as (d & Hd & X). exists d. split; [now right|exact X]. }
    rewrite Forall_forall in HA1. intros x (A & B). apply (HA1 d Hd x). split; [now apply (proj1 (proj2 Hc))|now apply (proj1 (proj2 Ed))].
Qed.

(** ** Bisection *)
Definition rep (a m v : nat) : nat := if v =? a then m else v.
Lemma rep_NoDup a m t : NoDup t -> ~ In m t -> NoDup (map (rep a m) t).
Proof.
  intros Hn Hm. induction Hn as [|x t Hx Hn IH]; cbn; [constructor|]. constructor; [|apply IH; intro; apply Hm; now right].
  intro H. apply in_map_iff in H as (v & E & Hv). unfold rep in E. destruct (Nat.eqb_spec v a) as [E1|N], (Nat.eqb_spec x a) as [E2|N'].
  - apply Hx. congruence.
  - apply Hm. left. congruence.
  - apply Hm. right. congruence.
  - apply Hx. congruence.
Qed.

Section Bisect.
Variables (t : list nat) (a b m : nat).
Hypothesis Hn : NoDup t.
Hypothesis Ha : In a t.
Hypothesis Hb : In b t.
Hypothesis Hab : a <> b.
Hypothesis Hm : ~ In m t.
Hypothesis Hpl : forall c, pl m c = ((pl a c + pl b c) / 2)%R.
(** The half with [a]: [b] replaced by [m] *)
Notation half := (map (rep b m) t).

Lemma half_in v : In v half <-> (v = m \/ In v t /\ v <> b).
Proof.
  rewrite in_map_iff. unfold rep. split.
  - intros (w & <- & Hw). destruct (Nat.eqb_spec w b); auto.
  - intros [E|(Hv & Hne)].
    + exists b. rewrite Nat.eqb_refl. auto.
    + exists v. destruct (Nat.eqb_spec v b); [congruence|auto].
Qed.
Lemma half_sum g f : (g m = 2 * f b)%R -> (g a = f a - f b)%R -> (forall v, In v t -> v <> a -> v <> b -> g v = f v) ->
  fsum half g = fsum t f /\ forall c, fsum half (fun v => g v * pl v c)%R = fsum t (fun v => f v * pl v c)%R.
Proof.
  intros Em Ea Eo. assert (Era : rep b m a = a) by (unfold rep; destruct (Nat.eqb_spec a b); congruence).
  assert (Erb : rep b m b = m) by (unfold rep; now rewrite Nat.eqb_refl).
  assert (Ero : forall v, v <> b -> rep b m v = v) by (intros v H; unfold rep; destruct (Nat.eqb_spec v b); congruence).
  split; [|intro c]; rewrite fsum_map.
  - rewrite (fsum_two t a b _ f); [|assumption..|].
    + rewrite Era, Erb, Em, Ea. lra.
    + intros v Hv H1 H2. rewrite Ero by assumption. auto.
  - rewrite (fsum_two t a b _ (fun v => f v * pl v c)%R); [|assumption..|].
    + rewrite Era, Erb, Em, Ea, Hpl. lra.
    + intros v Hv H1 H2. rewrite Ero by assumption. now rewrite Eo.
Qed.
(** Weights on the half from weights on the whole and back *)
Definition down (f : nat -> R) (v : nat) : R := if v =? m then (2 * f b)%R else if v =? a then (f a - f b)%R else f v.
Definition up (g : nat -> R) (v : nat) : R := if v =? b then (g m / 2)%R else if v =? a then (g a + g m / 2)%R else g v.
Lemma am : a <> m.
Proof. intros ->. contradiction. Qed.
Lemma bm : b <> m.
Proof. intros ->. contradiction. Qed.
Lemma down_sum f : fsum half (down f) = fsum t f /\ forall c, fsum half (fun v => down f v * pl v c)%R = fsum t (fun v => f v * pl v c)%R.
Proof.
  pose proof am. apply half_sum; unfold down.
  - now rewrite Nat.eqb_refl.
  - destruct (Nat.eqb_spec a m); [congruence|]. now rewrite Nat.eqb_refl.
  - intros v Hv H1 H2. destruct (Nat.eqb_spec v m) as [->|]; [contradiction|]. destruct (Nat.eqb_spec v a); [contradiction|reflexivity].
Qed.
Lemma up_b g : up g b = (g m / 2)%R.
Proof. unfold up. now rewrite Nat.eqb_refl. Qed.
Lemma up_a g : up g a = (g a + g m / 2)%R.
Proof. unfold up. destruct (Nat.eqb_spec a b); [congruence|]. now rewrite Nat.eqb_refl. Qed.
Lemma up_o g v : v <> a -> v <> b -> up g v = g v.
Proof. intros. unfold up. destruct (Nat.eqb_spec v b); [congruence|]. destruct (Nat.eqb_spec v a); [congruence|reflexivity]. Qed.
Lemma up_sum g : fsum half g = fsum t (up g) /\ forall c, fsum half (fun v => g v * pl v c)%R = fsum t (fun v => up g v * pl v c)%R.
Proof.
  apply half_sum; [rewrite up_b; lra|rewrite up_a, up_b; lra|]. intros v Hv H1 H2. now rewrite up_o.
Qed.

Lemma half_nd : NoDup half.
Proof. now apply rep_NoDup. Qed.
Lemma half_ex_a : In a half.
Proof. apply half_in. auto. Qed.
Lemma half_ex_m : In m half.
Proof. apply half_in. auto. Qed.

(** A point of the half: the weight of [a] is at least the one of [b]. *)
Lemma half_simplex x : in_simplex (pts half) x <->
  exists f, (forall v, In v t -> (0 <= f v)%R) /\ fsum t f = 1%R /\ (forall c, x c = fsum t (fun v => f v * pl v c)%R) /\ (f b <= f a)%R.
Proof.
  rewrite in_simplex_fun by apply half_nd. split.
  - intros (g & A & B & C). destruct (up_sum g) as (S1 & S2). exists (up g).
    pose proof (A a half_ex_a). pose proof (A m half_ex_m). split; [|split; [|split]].
    + intros v Hv. destruct (Nat.eq_dec v b) as [->|N1]; [rewrite up_b; lra|]. destruct (Nat.eq_dec v a) as [->|N2]; [rewrite up_a; lra|].
      rewrite up_o by assumption. apply A, half_in. auto.
    + now rewrite <- S1.
    + intro c. now rewrite <- S2.
    + rewrite up_a, up_b. lra.
  - intros (f & A & B & C & D). destruct (down_sum f) as (S1 & S2). exists (down f). split; [|split].
    + intros v Hv. unfold down. pose proof (A b Hb). destruct (Nat.eqb_spec v m); [lra|]. destruct (Nat.eqb_spec v a); [lra|].
      apply half_in in Hv as [|(Hv & _)]; [contradiction|auto].
    + now rewrite S1.
    + intro c. now rewrite S2.
Qed.
Lemma half_interior x : in_interior (pts half) x ->
  exists f, (forall v, In v t -> (0 < f v)%R) /\ fsum t f = 1%R /\ (forall c, x c = fsum t (fun v => f v * pl v c)%R) /\ (f b < f a)%R.
Proof.
  rewrite in_interior_fun by apply half_nd. intros (g & A & B & C). destruct (up_sum g) as (S1 & S2). exists (up g).
  pose proof (A a half_ex_a). pose proof (A m half_ex_m). split; [|split; [|split]].
  - intros v Hv. destruct (Nat.eq_dec v b) as [->|N1]; [rewrite up_b; lra|]. destruct (Nat.eq_dec v a) as [->|N2]; [rewrite up_a; lra|].
    rewrite up_o by assumption. apply A, half_in. auto.
  - now rewrite <- S1.
  - intro c. now rewrite <- S2.
  - rewrite up_a, up_b. lra.
Qed.
Lemma half_independent : independent (pts t) -> independent (pts half).
Proof.
  rewrite !independent_fun by (assumption || apply half_nd). intros H g A B v Hv. destruct (up_sum g) as (S1 & S2).
  assert (Hz : forall v, In v t -> up g v = 0%R).
  { apply H; [now rewrite <- S1|]. intro c. now rewrite <- S2. }
  pose proof (Hz b Hb) as Zb. rewrite up_b in Zb. pose proof (Hz a Ha) as Za. rewrite up_a in Za.
  apply half_in in Hv as [->|(Hv & N1)]; [lra|]. destruct (Nat.eq_dec v a) as [->|N2]; [lra|]. rewrite <- (up_o g v) by assumption. auto.
Qed.
End Bisect.

Lemma bisect_tl t a b m : NoDup t -> In a t -> In b t -> a <> b -> ~ In m t -> (forall c, pl m c = ((pl a c + pl b c) / 2)%R) ->
  tl [map (rep a m) t; map (rep b m) t] t.
Proof.
  intros Hn Ha Hb Hab Hm Hpl.
  assert (Hpl' : forall c, pl m c = ((pl b c + pl a c) / 2)%R) by (intro; rewrite Hpl; lra).
  assert (Hba : b <> a) by congruence. split.
  - intro x. rewrite in_simplex_fun by exact Hn. split.
    + intros (f & A & B & C). destruct (Rle_dec (f b) (f a)) as [D|D].
      * exists (map (rep b m) t). split; [right; now left|]. apply (half_simplex t a b m); auto. exists f. auto.
      * exists (map (rep a m) t). split; [now left|]. apply (half_simplex t b a m); auto. exists f. repeat split; auto. lra.
    + intros (c & [<-|[<-|[]]] & Hx); [apply (half_simplex t b a m) in Hx|apply (half_simplex t a b m) in Hx]; auto; destruct Hx as (f & A & B & C & _); eauto.
  - intros x c Hc Hx. apply in_interior_fun; [exact Hn|].
    destruct Hc as [<-|[<-|[]]]; [apply (half_interior t b a m) in Hx|apply (half_interior t a b m) in Hx]; auto; destruct Hx as (f & A & B & C & _); eauto.
  - intros Hi c [<-|[<-|[]]]; [apply (half_independent t b a m)|apply (half_independent t a b m)]; auto.
  - intro Hi. constructor; [|repeat constructor]. constructor; [|constructor]. intros x (H1 & H2).
    apply (half_interior t b a m) in H1; auto. apply (half_interior t a b m) in H2; auto.
    destruct H1 as (f & _ & B1 & C1 & D1), H2 as (g & _ & B2 & C2 & D2).
    rewrite independent_fun in Hi by exact Hn.
    assert (Hz : forall v, In v t -> (f v - g v = 0)%R).
    { apply Hi; [rewrite fsum_minus; lra|]. intro c. rewrite (fsum_ext t _ (fun v => f v * pl v c - g v * pl v c)%R) by (intros; lra).
      rewrite fsum_minus, <- C1, <- C2. lra. }
    pose proof (Hz a Ha). pose proof (Hz b Hb). lra.
Qed.
End Place.
