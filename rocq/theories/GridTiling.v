(** Cells on a grid of integer points that tile a box. *)
From Coq Require Import Reals Lra.
From Verif Require Import Base BaseProofs GenerationSpec.
Open Scope nat_scope.

(** ** Combinations *)
Lemma rsum_app l m : rsum (l ++ m) = (rsum l + rsum m)%R.
Proof. unfold rsum. induction l as [|a t IH]; cbn; [lra|]. rewrite IH. lra. Qed.

Lemma comb_cons {A} (f : A -> R) a c x l : comb f (a :: c) (x :: l) = (f a * x + comb f c l)%R.
Proof. reflexivity. Qed.
Lemma comb_map {A B} (e : A -> B) (f : B -> R) c l : comb f (map e c) l = comb (fun a => f (e a)) c l.
Proof. revert l. induction c as [|a c IH]; intros [|x l]; [reflexivity..|]. cbn [map]. rewrite !comb_cons, IH. reflexivity. Qed.
Lemma comb_ext {A} (f g : A -> R) c l : (forall a, In a c -> f a = g a) -> comb f c l = comb g c l.
Proof.
  revert l. induction c as [|a c IH]; intros [|x l] H; [reflexivity..|]. rewrite !comb_cons.
  rewrite (H a (or_introl eq_refl)), IH; [reflexivity|]. intros b Hb. apply H. right. exact Hb.
Qed.
Lemma comb_zero {A} (f : A -> R) c l : (forall a, In a c -> f a = 0%R) -> comb f c l = 0%R.
Proof.
  revert l. induction c as [|a c IH]; intros [|x l] H; [reflexivity..|]. rewrite comb_cons.
  rewrite (H a (or_introl eq_refl)), IH; [lra|]. intros b Hb. apply H. right. exact Hb.
Qed.
Lemma comb_affine {A} (f : A -> R) c l p h : length c = length l ->
  comb (fun a => p + f a * h)%R c l = (p * rsum l + h * comb f c l)%R.
Proof.
  revert l. induction c as [|a c IH]; intros [|x l] E; try discriminate.
  - unfold comb, rsum. cbn. lra.
  - injection E as E. rewrite !comb_cons, (IH l E). cbn [rsum fold_right]. fold (rsum l). lra.
Qed.
Lemma comb_bounds {A} (f : A -> R) c l lo hi : length c = length l -> (forall a, In a l -> (0 <= a)%R) ->
  (forall a, In a c -> (lo <= f a <= hi)%R) -> (lo * rsum l <= comb f c l <= hi * rsum l)%R.
Proof.
  revert l. induction c as [|a c IH]; intros [|x l] E Hl Hf; try discriminate.
  - unfold comb, rsum. cbn. lra.
  - injection E as E. rewrite !comb_cons. cbn [rsum fold_right]. fold (rsum l).
    pose proof (IH l E (fun b Hb => Hl b (or_intror Hb)) (fun b Hb => Hf b (or_intror Hb))) as (H1 & H2).
    pose proof (Hl x (or_introl eq_refl)) as Hx. pose proof (Hf a (or_introl eq_refl)) as (H3 & H4).
    pose proof (Rmult_le_compat_r x _ _ Hx H3). pose proof (Rmult_le_compat_r x _ _ Hx H4). lra.
Qed.

(** ** Places on the grid *)
(** The same as [tiling] for points whose coordinates are [pos], between [0] and [n] *)
Record gtiling (W : list R -> Prop) (N : nat) (pos : nat -> nat -> R) (n : nat -> R) (cells : list (list nat)) : Prop := {
  g_vertices : forall c, In c cells -> NoDup c /\ forall v, In v c -> v < N;
  g_inj : forall v w, v < N -> w < N -> (forall j, pos j v = pos j w) -> v = w;
  g_used : forall v, v < N -> exists c, In c cells /\ In v c;
  g_once : ForallOrdPairs (fun c c' => ~ Permutation c c') cells;
  g_in : forall v j, v < N -> (0 <= pos j v <= n j)%R;
  g_cover : forall g, (forall j, (0 <= g j <= n j)%R) -> exists c l, In c cells /\ W l /\ length c = length l /\
    forall j, g j = comb (pos j) c l;
  g_match : forall c c' l m, In c cells -> In c' cells -> W l -> length c = length l -> W m -> length c' = length m ->
    (forall j, comb (pos j) c l = comb (pos j) c' m) -> forall v, v < N -> weight v c l = weight v c' m
}.

Section Reduce.
Variable W : list R -> Prop.
Variable X : list (list R).
Variable pos : nat -> nat -> R.
Variables lo h n : nat -> R.
Variable cells : list (list nat).
Hypothesis HW : forall l, W l -> (forall a, In a l -> (0 <= a)%R) /\ rsum l = 1%R.
Hypothesis HX : forall v j, v < length X -> coordinate X j v = (lo j + pos j v * h j)%R.
Hypothesis Hh : forall j, (0 < h j)%R.
Hypothesis HG : gtiling W (length X) pos n cells.

Lemma cell_place c l j : In c cells -> W l -> length c = length l ->
  comb (coordinate X j) c l = (lo j + h j * comb (pos j) c l)%R.
Proof.
  intros Hc Hl E. destruct (g_vertices _ _ _ _ _ HG c Hc) as (_ & Hv).
  rewrite (comb_ext _ (fun v => lo j + pos j v * h j)%R).
  - rewrite comb_affine by exact E. destruct (HW l Hl) as (_ & ->). lra.
  - intros v Hv'. apply HX, Hv, Hv'.
Qed.

Lemma reduce : tiling W X cells lo (fun j => lo j + n j * h j)%R.
Proof.
  constructor.
  - apply (g_vertices _ _ _ _ _ HG).
  - intros v w Hv Hw E. apply (g_inj _ _ _ _ _ HG v w Hv Hw). intro j. specialize (E j).
    rewrite !HX in E by assumption. apply (Rmult_eq_reg_r (h j)); [lra|]. pose proof (Hh j). lra.
  - apply (g_used _ _ _ _ _ HG).
  - apply (g_once _ _ _ _ _ HG).
  - intro x. split.
    + intro Hx. destruct (g_cover _ _ _ _ _ HG (fun j => (x j - lo j) / h j)%R) as (c & l & Hc & Hl & El & Hg).
      { intro j. specialize (Hx j). pose proof (Hh j) as Hj.
        assert (E : ((x j - lo j) / h j * h j = x j - lo j)%R) by (field; lra).
        split; apply (Rmult_le_reg_r (h j)); try lra; rewrite E; lra. }
      exists c, l. split; [exact Hc|]. split; [exact Hl|]. split; [exact El|]. intro j.
      rewrite (cell_place c l j Hc Hl El), <- Hg. field. pose proof (Hh j). lra.
    + intros (c & l & Hc & Hl & El & Hx) j. rewrite (Hx j), (cell_place c l j Hc Hl El). destruct (HW l Hl) as (Hp & Es).
      destruct (g_vertices _ _ _ _ _ HG c Hc) as (_ & Hv).
      pose proof (comb_bounds (pos j) c l 0 (n j) El Hp (fun v Hv' => g_in _ _ _ _ _ HG v j (Hv v Hv'))) as (H1 & H2).
      rewrite Es in H1, H2. pose proof (Hh j) as Hj.
      pose proof (Rmult_le_compat_l (h j) _ _ (Rlt_le _ _ Hj) H1). pose proof (Rmult_le_compat_l (h j) _ _ (Rlt_le _ _ Hj) H2). lra.
  - intros c c' l m x Hc Hc' (Hl & El & Hx) (Hm & Em & Hx') v.
    destruct (Nat.lt_ge_cases v (length X)) as [Hv|Hv].
    + apply (g_match _ _ _ _ _ HG c c' l m Hc Hc' Hl El Hm Em); [|exact Hv]. intro j. specialize (Hx j). specialize (Hx' j).
      rewrite (cell_place c l j Hc Hl El) in Hx. rewrite (cell_place c' m j Hc' Hm Em) in Hx'.
      apply (Rmult_eq_reg_l (h j)); [lra|]. pose proof (Hh j). lra.
    + assert (Z : forall c l, In c cells -> weight v c l = 0%R).
      { intros d k Hd. apply comb_zero. intros u Hu. destruct (g_vertices _ _ _ _ _ HG d Hd) as (_ & Hd').
        specialize (Hd' u Hu). destruct (Nat.eqb_spec u v); [lia|reflexivity]. }
      rewrite (Z c l Hc), (Z c' m Hc'). reflexivity.
Qed.
End Reduce.

(** ** Hat functions *)
(** The piecewise linear function with value one at the origin on the simplices whose edges
    have directions in {0,1}^k; the argument is the list of coordinates. *)
Definition hat (ds : list R) (r : R) : Prop :=
  (0 <= r)%R /\ (r = 0%R \/ forall a b, In a (0%R :: ds) -> In b (0%R :: ds) -> (r <= 1 - a + b)%R) /\
  exists a b, In a (0%R :: ds) /\ In b (0%R :: ds) /\ (1 - a + b <= r)%R.
Lemma hat_fun ds r s : hat ds r -> hat ds s -> r = s.
Proof.
  assert (L : forall r s, hat ds r -> hat ds s -> (r <= s)%R).
  { intros x y (Hx & Ux & _) (Hy & _ & (a & b & Ha & Hb & L)). destruct Ux as [->|Ux]; [exact Hy|].
    specialize (Ux a b Ha Hb). lra. }
  intros Hr Hs. pose proof (L r s Hr Hs). pose proof (L s r Hs Hr). lra.
Qed.
Lemma hat_out ds d : In d ds -> (d <= -1 \/ 1 <= d)%R -> hat ds 0%R.
Proof.
  intros Hd H. split; [lra|]. split; [left; reflexivity|]. destruct H as [H|H].
  - exists 0%R, d. split; [left; reflexivity|]. split; [right; exact Hd|]. lra.
  - exists d, 0%R. split; [right; exact Hd|]. split; [left; reflexivity|]. lra.
Qed.

(** ** Cells made of corners of the squares of a grid *)
Notation place := (nat * nat * nat)%type.
Definition co (j : nat) (a : place) : nat :=
  match j with 0 => fst (fst a) | 1 => snd (fst a) | 2 => snd a | _ => 0 end.
Definition padd (a b : place) : place := (fst (fst a) + fst (fst b), snd (fst a) + snd (fst b), snd a + snd b).
Definition peqb (a b : place) : bool :=
  (fst (fst a) =? fst (fst b)) && (snd (fst a) =? snd (fst b)) && (snd a =? snd b).
Definition ple (a b : place) : Prop := forall j, co j a <= co j b.
Lemma ple_iff a b : ple a b <-> fst (fst a) <= fst (fst b) /\ snd (fst a) <= snd (fst b) /\ snd a <= snd b.
Proof.
  split.
  - intro H. split; [exact (H 0)|]. split; [exact (H 1)|exact (H 2)].
  - intros (H0 & H1 & H2) [|[|[|j]]]; cbn; [exact H0|exact H1|exact H2|lia].
Qed.
Lemma co_add j a b : co j (padd a b) = co j a + co j b.
Proof. destruct j as [|[|[|j]]]; reflexivity. Qed.
Lemma peqb_spec a b : peqb a b = true <-> a = b.
Proof.
  destruct a as [[a0 a1] a2], b as [[b0 b1] b2]. unfold peqb. cbn. rewrite !andb_true_iff, !Nat.eqb_eq.
  split; [intros ((-> & ->) & ->); reflexivity|]. intro E. injection E as -> -> ->. auto.
Qed.
Lemma place_ext a b : (forall j, co j a = co j b) -> a = b.
Proof. destruct a as [[a0 a1] a2], b as [[b0 b1] b2]. intro H. pose proof (H 0). pose proof (H 1). pose proof (H 2). cbn in *. congruence. Qed.

Lemma unit_square (n : nat) (g : R) : (0 <= g <= INR n)%R ->
  exists b, b < max 1 n /\ (0 <= g - INR b)%R /\ (g - INR b <= INR (min 1 n))%R.
Proof.
  induction n as [|n IH]; intros (H1 & H2).
  - exists 0. cbn in *. split; [lia|]. lra.
  - rewrite S_INR in H2. destruct (Rle_dec g (INR n)) as [L|L].
    + destruct n as [|n].
      * exists 0. cbn in *. split; [lia|]. lra.
      * destruct IH as (b & Hb & H3 & H4); [lra|]. exists b. split; [lia|]. cbn [Nat.min] in *. lra.
    + exists n. split; [lia|]. replace (min 1 (S n)) with 1 by lia. change (INR 1) with 1%R. lra.
Qed.

(** A property of all pairs of a list that is made of blocks *)
Lemma FOP_app {A} (Rel : A -> A -> Prop) l m : ForallOrdPairs Rel l -> ForallOrdPairs Rel m ->
  (forall x y, In x l -> In y m -> Rel x y) -> ForallOrdPairs Rel (l ++ m).
Proof.
  induction 1 as [|a l Ha Hl IH]; intros Hm H; [exact Hm|]. cbn. constructor.
  - apply Forall_app. split; [exact Ha|]. apply Forall_forall. intros y Hy. apply H; [left; reflexivity|exact Hy].
  - apply IH; [exact Hm|]. intros x y Hx Hy. apply H; [right; exact Hx|exact Hy].
Qed.
Lemma FOP_concat {A B} (Rel : B -> B -> Prop) (f : A -> list B) l : NoDup l ->
  (forall a, In a l -> ForallOrdPairs Rel (f a)) ->
  (forall a b x y, In a l -> In b l -> a <> b -> In x (f a) -> In y (f b) -> Rel x y) ->
  ForallOrdPairs Rel (concat (map f l)).
Proof.
  induction 1 as [|a l Ha Hl IH]; intros H1 H2; [constructor|]. cbn. apply FOP_app.
  - apply H1. left. reflexivity.
  - apply IH; [intros b Hb; apply H1; right; exact Hb|].
    intros b c x y Hb Hc. apply H2; right; assumption.
  - intros x y Hx Hy. apply in_concat in Hy as (t & Ht & Hy). apply in_map_iff in Ht as (b & <- & Hb).
    apply (H2 a b x y); [left; reflexivity|right; exact Hb| |exact Hx|exact Hy]. intros ->. exact (Ha Hb).
Qed.
Lemma FOP_map {A B} (Rel : B -> B -> Prop) (f : A -> B) l :
  ForallOrdPairs (fun a b => Rel (f a) (f b)) l -> ForallOrdPairs Rel (map f l).
Proof.
  induction 1 as [|a l Ha Hl IH]; [constructor|]. cbn. constructor; [|exact IH].
  apply Forall_forall. intros y Hy. apply in_map_iff in Hy as (b & <- & Hb). exact (proj1 (Forall_forall _ _) Ha b Hb).
Qed.
Lemma FOP_impl {A} (P Q : A -> A -> Prop) l : (forall a b, In a l -> In b l -> P a b -> Q a b) ->
  ForallOrdPairs P l -> ForallOrdPairs Q l.
Proof.
  intros H HP. induction HP as [|a l Ha Hl IH]; [constructor|]. constructor.
  - apply Forall_forall. intros b Hb. apply H; [left; reflexivity|right; exact Hb|]. exact (proj1 (Forall_forall _ _) Ha b Hb).
  - apply IH. intros x y Hx Hy. apply H; right; assumption.
Qed.

Definition csum (j : nat) (D : list place) : nat := lsum (map (co j) D).
