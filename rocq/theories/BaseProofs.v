(** Lemmas about [Base]. *)
From Verif Require Import Base.

Lemma obind_some {A B} (o : option A) (f : A -> option B) b :
  obind o f = Some b <-> exists a, o = Some a /\ f a = Some b.
Proof.
  split.
  - destruct o as [a|]; cbn; intro H; [eauto|discriminate].
  - intros (a & -> & H). exact H.
Qed.

Lemma ofold_app {S A} (f : S -> A -> option S) l1 l2 s :
  ofold f (l1 ++ l2) s = (s' <- ofold f l1 s ;; ofold f l2 s').
Proof.
  revert s; induction l1 as [|a t IH]; intro s; cbn; [reflexivity|].
  destruct (f s a); cbn; auto.
Qed.

Lemma ofold_total {S A} (f : S -> A -> option S) (P : S -> Prop) l s :
  P s -> (forall s a, P s -> In a l -> exists s', f s a = Some s' /\ P s') ->
  exists s', ofold f l s = Some s' /\ P s'.
Proof.
  revert s; induction l as [|a t IH]; intros s Hs Hf; cbn; [eauto|].
  destruct (Hf s a Hs (or_introl eq_refl)) as (s1 & -> & H1); cbn.
  apply IH; [exact H1|]. intros s2 b Hs2 Hb. apply Hf; [exact Hs2|now right].
Qed.

(** Invariant rule indexed by the processed prefix. *)
Lemma ofold_prefix_ind {S A} (f : S -> A -> option S) (Inv : list A -> S -> Prop) l s :
  Inv [] s ->
  (forall p a q s, l = p ++ a :: q -> Inv p s -> exists s', f s a = Some s' /\ Inv (p ++ [a]) s') ->
  exists s', ofold f l s = Some s' /\ Inv l s'.
Proof.
  intros H0 Hstep.
  assert (G : forall q p s, l = p ++ q -> Inv p s ->
              exists s', ofold f q s = Some s' /\ Inv l s').
  { induction q as [|a q IH]; intros p s1 E HI.
    - cbn. exists s1. split; [reflexivity|]. rewrite app_nil_r in E. now subst.
    - cbn. destruct (Hstep p a q s1 E HI) as (s2 & -> & H2). cbn.
      apply (IH (p ++ [a]) s2); [|exact H2]. now rewrite <- app_assoc. }
  apply (G l [] s eq_refl H0).
Qed.

Lemma omap_length {A B} (f : A -> option B) l r :
  omap f l = Some r -> length r = length l.
Proof.
  revert r; induction l as [|a t IH]; cbn; intros r H.
  - now injection H as <-.
  - apply obind_some in H as (b & _ & H). apply obind_some in H as (bs & Hb & H).
    injection H as <-. cbn. now rewrite (IH bs Hb).
Qed.

Lemma omap_nth {A B} (f : A -> option B) l r :
  omap f l = Some r ->
  forall i a, nth_error l i = Some a -> exists b, nth_error r i = Some b /\ f a = Some b.
Proof.
  revert r; induction l as [|a t IH]; cbn; intros r H.
  - intros [|i] a' Ha; discriminate Ha.
  - apply obind_some in H as (b & Hf & H). apply obind_some in H as (bs & Hb & H).
    injection H as <-. intros [|i] a'; cbn; intro Ha.
    + injection Ha as <-. eauto.
    + eapply IH; eauto.
Qed.

Lemma omap_some {A B} (f : A -> option B) l :
  (forall a, In a l -> exists b, f a = Some b) -> exists r, omap f l = Some r.
Proof.
  induction l as [|a t IH]; intro H; cbn; [eauto|].
  destruct (H a (or_introl eq_refl)) as (b & ->). cbn.
  destruct IH as (r & ->); [intros; apply H; now right|]. cbn. eauto.
Qed.

Lemma omap_map {A B} (f : A -> option B) (g : A -> B) l :
  (forall a, In a l -> f a = Some (g a)) -> omap f l = Some (map g l).
Proof.
  induction l as [|a t IH]; intro H; cbn; [reflexivity|].
  rewrite (H a (or_introl eq_refl)). cbn. rewrite IH; [reflexivity|]. intros; apply H; now right.
Qed.

Lemma omap_ext {A B} (f g : A -> option B) l :
  (forall a, In a l -> f a = g a) -> omap f l = omap g l.
Proof.
  induction l as [|a t IH]; intro H; cbn; [reflexivity|].
  rewrite (H a (or_introl eq_refl)), IH; [reflexivity|]. intros; apply H; now right.
Qed.

(** ** Updates *)

Lemma upd_some {A} (l : list A) i v : i < length l -> exists l', upd l i v = Some l'.
Proof.
  revert i; induction l as [|x t IH]; intros [|j] H; cbn in *; try lia; eauto.
  destruct (IH j) as (t' & ->); [lia|]. cbn. eauto.
Qed.

Lemma upd_none {A} (l : list A) i v : length l <= i -> upd l i v = None.
Proof.
  revert i; induction l as [|x t IH]; intros [|j] H; cbn in *; try lia; auto.
  now rewrite IH by lia.
Qed.

Lemma upd_bound {A} (l l' : list A) i v : upd l i v = Some l' -> i < length l.
Proof.
  intro H. destruct (le_lt_dec (length l) i) as [L|L]; [|exact L].
  now rewrite upd_none in H by exact L.
Qed.

Lemma upd_length {A} (l l' : list A) i v : upd l i v = Some l' -> length l' = length l.
Proof.
  revert i l'; induction l as [|x t IH]; intros [|j] l' H; cbn in H; try discriminate.
  - now injection H as <-.
  - apply obind_some in H as (t' & Ht & H). injection H as <-. cbn. f_equal. eauto.
Qed.

Lemma upd_nth_eq {A} (l l' : list A) i v : upd l i v = Some l' -> nth_error l' i = Some v.
Proof.
  revert i l'; induction l as [|x t IH]; intros [|j] l' H; cbn in H; try discriminate.
  - now injection H as <-.
  - apply obind_some in H as (t' & Ht & H). injection H as <-. cbn. eauto.
Qed.

Lemma upd_nth_neq {A} (l l' : list A) i j v :
  upd l i v = Some l' -> i <> j -> nth_error l' j = nth_error l j.
Proof.
  revert i j l'; induction l as [|x t IH]; intros [|i] j l' H N; cbn in H; try discriminate.
  - injection H as <-. destruct j; [lia|reflexivity].
  - apply obind_some in H as (t' & Ht & H). injection H as <-.
    destruct j as [|j]; [reflexivity|]. cbn. eapply IH; eauto.
Qed.

Lemma upd_nth {A} (l l' : list A) i j v :
  upd l i v = Some l' -> nth_error l' j = if i =? j then Some v else nth_error l j.
Proof.
  intro H. destruct (Nat.eqb_spec i j) as [<-|N].
  - eapply upd_nth_eq; eauto.
  - eapply upd_nth_neq; eauto.
Qed.

Lemma upd_app_mid {A} (p : list A) x q v :
  upd (p ++ x :: q) (length p) v = Some (p ++ v :: q).
Proof. induction p as [|y p IH]; cbn; [reflexivity|]. now rewrite IH. Qed.

Lemma upd_app_l {A} (p q : list A) i v p' :
  upd p i v = Some p' -> upd (p ++ q) i v = Some (p' ++ q).
Proof.
  revert i p'; induction p as [|x p IH]; intros [|i] p' H; cbn in *; try discriminate.
  - now injection H as <-.
  - apply obind_some in H as (t & Ht & H). injection H as <-. now rewrite (IH _ _ Ht).
Qed.

Lemma upd_app_r {A} (p q : list A) i v q' :
  upd q i v = Some q' -> upd (p ++ q) (length p + i) v = Some (p ++ q').
Proof. intro H. induction p as [|x p IH]; cbn; [exact H|]. now rewrite IH. Qed.

Lemma upd_split {A} (l l' : list A) i v :
  upd l i v = Some l' <->
  exists p x q, l = p ++ x :: q /\ length p = i /\ l' = p ++ v :: q.
Proof.
  split.
  - revert i l'; induction l as [|x t IH]; intros [|i] l' H; cbn in H; try discriminate.
    + injection H as <-. now exists [], x, t.
    + apply obind_some in H as (t' & Ht & H). injection H as <-.
      destruct (IH _ _ Ht) as (p & y & q & -> & <- & ->). now exists (x :: p), y, q.
  - intros (p & x & q & -> & <- & ->). apply upd_app_mid.
Qed.

Lemma modify_some {A} (l : list A) i (f : A -> A) : i < length l -> exists l', modify l i f = Some l'.
Proof.
  intro H. unfold modify. destruct (nth_error l i) as [x|] eqn:E.
  - cbn. now apply upd_some.
  - apply nth_error_None in E. lia.
Qed.

Lemma modify_nth {A} (l l' : list A) i j (f : A -> A) :
  modify l i f = Some l' ->
  nth_error l' j = if i =? j then option_map f (nth_error l j) else nth_error l j.
Proof.
  unfold modify. intro H. apply obind_some in H as (x & Hx & H).
  rewrite (upd_nth _ _ _ j _ H). destruct (Nat.eqb_spec i j) as [<-|N]; [|reflexivity].
  now rewrite Hx.
Qed.

Lemma modify_length {A} (l l' : list A) i (f : A -> A) : modify l i f = Some l' -> length l' = length l.
Proof.
  unfold modify. intro H. apply obind_some in H as (x & Hx & H). eapply upd_length; eauto.
Qed.

Lemma modify_split {A} (l l' : list A) i (f : A -> A) :
  modify l i f = Some l' <->
  exists p x q, l = p ++ x :: q /\ length p = i /\ l' = p ++ f x :: q.
Proof.
  unfold modify. rewrite obind_some. split.
  - intros (x & Hx & H). apply upd_split in H as (p & y & q & -> & <- & ->).
    rewrite nth_error_app2, Nat.sub_diag in Hx by lia. injection Hx as ->. now exists p, x, q.
  - intros (p & x & q & -> & <- & ->). exists x. split; [|apply upd_app_mid].
    now rewrite nth_error_app2, Nat.sub_diag by lia.
Qed.

Lemma nth_error_ext {A} (l l' : list A) :
  (forall i, nth_error l i = nth_error l' i) -> l = l'.
Proof.
  revert l'; induction l as [|x t IH]; intros [|y t'] H; auto.
  - discriminate (H 0).
  - discriminate (H 0).
  - pose proof (H 0) as H0; injection H0 as <-. f_equal. apply IH. intro i. apply (H (S i)).
Qed.

Lemma nth_error_seq a n i : i < n -> nth_error (seq a n) i = Some (a + i).
Proof.
  revert a i; induction n as [|n IH]; intros a i H; [lia|].
  destruct i as [|i]; cbn; [f_equal; lia|]. rewrite IH by lia. f_equal; lia.
Qed.

Lemma nth_error_repeat {A} (x : A) n i : i < n -> nth_error (repeat x n) i = Some x.
Proof.
  revert i; induction n as [|n IH]; intros i H; [lia|].
  destruct i; cbn; [reflexivity|]. apply IH. lia.
Qed.

Lemma nth_error_map_some {A B} (f : A -> B) l i :
  nth_error (map f l) i = option_map f (nth_error l i).
Proof. revert i; induction l as [|x t IH]; intros [|i]; cbn; auto. Qed.

Lemma nth_error_lt {A} (l : list A) i : i < length l -> exists x, nth_error l i = Some x.
Proof.
  intro H. destruct (nth_error l i) as [x|] eqn:E; [eauto|]. apply nth_error_None in E. lia.
Qed.

Lemma nth_error_bound {A} (l : list A) i x : nth_error l i = Some x -> i < length l.
Proof. intro H. apply nth_error_Some. congruence. Qed.

(** ** Sums and offsets *)

Lemma lsum_app l1 l2 : lsum (l1 ++ l2) = lsum l1 + lsum l2.
Proof. unfold lsum. induction l1 as [|x t IH]; cbn; lia. Qed.

Lemma lsum_nil : lsum [] = 0. Proof. reflexivity. Qed.
Lemma lsum_cons x l : lsum (x :: l) = x + lsum l. Proof. reflexivity. Qed.

Lemma psums_from_length a l : length (psums_from a l) = S (length l).
Proof. revert a; induction l as [|x t IH]; intro a; cbn; [reflexivity|]. now rewrite IH. Qed.

Lemma psums_length l : length (psums l) = S (length l).
Proof. apply psums_from_length. Qed.

Lemma psums_from_nth a l i :
  i <= length l -> nth_error (psums_from a l) i = Some (a + lsum (firstn i l)).
Proof.
  revert a i; induction l as [|x t IH]; intros a i H; cbn in H.
  - replace i with 0 by lia. cbn. f_equal. rewrite lsum_nil. lia.
  - destruct i as [|i]; cbn; [f_equal; rewrite lsum_nil; lia|]. rewrite IH by lia. f_equal. rewrite lsum_cons. lia.
Qed.

Lemma psums_nth l i : i <= length l -> nth_error (psums l) i = Some (lsum (firstn i l)).
Proof. intro H. unfold psums. now rewrite psums_from_nth. Qed.

Lemma lsum_firstn_S l i x : nth_error l i = Some x -> lsum (firstn (S i) l) = lsum (firstn i l) + x.
Proof.
  revert i; induction l as [|y t IH]; intros [|i] H; cbn in H; try discriminate.
  - injection H as ->. unfold lsum. cbn. lia.
  - cbn [firstn] in *. specialize (IH _ H). rewrite !lsum_cons. lia.
Qed.

Lemma lsum_firstn_le l i : lsum (firstn i l) <= lsum l.
Proof.
  rewrite <- (firstn_skipn i l) at 2. rewrite lsum_app. lia.
Qed.

Lemma lsum_concat_length {A} (L : list (list A)) : lsum (map (@length A) L) = length (concat L).
Proof. induction L as [|x t IH]; cbn; [reflexivity|]. rewrite app_length, lsum_cons. lia. Qed.

Lemma firstn_concat {A} (L : list (list A)) i :
  lsum (map (@length A) (firstn i L)) = length (concat (firstn i L)).
Proof. apply lsum_concat_length. Qed.

Lemma slice_some {A} (l : list A) a b r :
  slice l a b = Some r <-> a <= b /\ b <= length l /\ r = firstn (b - a) (skipn a l).
Proof.
  unfold slice. destruct (Nat.leb_spec a b), (Nat.leb_spec b (length l)); cbn; split;
    intros; try discriminate; try lia.
  - injection H1 as <-. auto.
  - destruct H1 as (_ & _ & ->). reflexivity.
Qed.

Lemma slice_app_mid {A} (p m q : list A) :
  slice (p ++ m ++ q) (length p) (length p + length m) = Some m.
Proof.
  apply slice_some. rewrite !app_length. repeat split; try lia.
  rewrite skipn_app, skipn_all, Nat.sub_diag. cbn.
  replace (length p + length m - length p) with (length m) by lia.
  rewrite firstn_app, firstn_all, Nat.sub_diag. cbn. now rewrite app_nil_r.
Qed.

(** The slices of a concatenation at the prefix sums of the lengths. *)
Lemma slice_at_concat {A} (L : list (list A)) i m :
  nth_error L i = Some m -> slice_at (concat L) (psums (map (@length A) L)) i = Some m.
Proof.
  intro H. unfold slice_at.
  pose proof (nth_error_bound _ _ _ H) as Hi.
  rewrite !psums_nth by (rewrite map_length; lia). cbn [obind].
  rewrite lsum_firstn_S with (x := length m) by (rewrite nth_error_map_some, H; reflexivity).
  rewrite firstn_map, firstn_concat.
  apply nth_error_split in H as (L1 & L2 & -> & <-).
  rewrite firstn_app, firstn_all, Nat.sub_diag. cbn [firstn]. rewrite app_nil_r.
  rewrite concat_app. cbn [concat]. apply slice_app_mid.
Qed.

(** ** Counting *)

Lemma countb_app {A} (p : A -> bool) l1 l2 : countb p (l1 ++ l2) = countb p l1 + countb p l2.
Proof. induction l1 as [|x t IH]; cbn; lia. Qed.

Lemma countb_filter {A} (p : A -> bool) l : countb p l = length (filter p l).
Proof. induction l as [|x t IH]; cbn; [reflexivity|]. destruct (p x); cbn; lia. Qed.

Lemma NoDup_nth_error_inj {A} (l : list A) i j x :
  NoDup l -> nth_error l i = Some x -> nth_error l j = Some x -> i = j.
Proof.
  intros H Hi Hj. apply (proj1 (NoDup_nth_error l) H); [eapply nth_error_bound; eauto|congruence].
Qed.

Lemma concat_map_nil {A B} (l : list A) : concat (map (fun _ => @nil B) l) = [].
Proof. induction l; cbn; auto. Qed.

Lemma last_psums_from a l : last (psums_from a l) 0 = a + lsum l.
Proof.
  revert a; induction l as [|x t IH]; intro a; cbn [psums_from].
  - cbn. rewrite lsum_nil. lia.
  - rewrite lsum_cons. specialize (IH (a + x)). destruct (psums_from (a + x) t) eqn:E.
    + destruct t; discriminate.
    + cbn [last]. cbn [last] in IH. rewrite IH. lia.
Qed.

Lemma last_psums l : last (psums l) 0 = lsum l.
Proof. unfold psums. now rewrite last_psums_from. Qed.

Lemma rev_psums l : exists t, rev (psums l) = lsum l :: t.
Proof.
  assert (G : forall a, exists t, rev (psums_from a l) = (a + lsum l) :: t).
  { induction l as [|x t IH]; intro a; cbn [psums_from].
    - exists []. cbn. rewrite lsum_nil, Nat.add_0_r. reflexivity.
    - destruct (IH (a + x)) as (u & E). cbn [rev]. rewrite E. cbn [app].
      rewrite lsum_cons, Nat.add_assoc. eauto. }
  apply G.
Qed.

Lemma psums_snoc l x : psums (l ++ [x]) = psums l ++ [lsum l + x].
Proof.
  assert (G : forall a, psums_from a (l ++ [x]) = psums_from a l ++ [a + lsum l + x]).
  { induction l as [|y t IH]; intro a; cbn [psums_from app].
    - rewrite lsum_nil. do 2 f_equal. lia.
    - rewrite IH, lsum_cons. do 3 f_equal. lia. }
  apply G.
Qed.

Lemma fold_offsets {A} (f : A -> nat) (rows : list A) :
  fold_left (fun o row => o ++ [last o 0 + f row]) rows [0] = psums (map f rows).
Proof.
  rewrite <- (rev_involutive rows). induction (rev rows) as [|r t IH]; [reflexivity|].
  cbn [rev]. rewrite fold_left_app, IH, map_app. cbn [map fold_left].
  now rewrite psums_snoc, last_psums.
Qed.

Lemma fold_concat {A} (rows : list (list A)) :
  fold_left (fun a e => a ++ e) rows [] = concat rows.
Proof.
  assert (G : forall a, fold_left (fun a e => a ++ e) rows a = a ++ concat rows).
  { induction rows as [|r t IH]; intro a; cbn; [now rewrite app_nil_r|].
    now rewrite IH, app_assoc. }
  apply G.
Qed.

Lemma rev_last {A} (l : list A) d : l <> [] -> exists t, rev l = last l d :: t.
Proof.
  intro H. destruct (exists_last H) as (l' & a & ->). rewrite rev_app_distr, last_last.
  cbn. eauto.
Qed.

Fixpoint diffs (l : list nat) : list nat :=
  match l with
  | a :: ((b :: _) as t) => (b - a) :: diffs t
  | _ => []
  end.

Lemma psums_diffs l a : Sorted le (a :: l) -> psums_from a (diffs (a :: l)) = a :: l.
Proof.
  revert a; induction l as [|b t IH]; intros a H; [reflexivity|].
  cbn [diffs psums_from]. f_equal. inversion H as [|? ? H1 H2]; subst.
  inversion H2; subst. replace (a + (b - a)) with b by lia. now apply IH.
Qed.

Lemma chop {A} (data : list A) (ls : list nat) :
  lsum ls = length data -> exists rows, data = concat rows /\ map (@length A) rows = ls.
Proof.
  revert data; induction ls as [|n t IH]; intros data H.
  - rewrite lsum_nil in H. destruct data; [|discriminate]. now exists [].
  - rewrite lsum_cons in H. destruct (IH (skipn n data)) as (rows & E & M).
    { rewrite skipn_length. lia. }
    exists (firstn n data :: rows). cbn. rewrite <- E, M, firstn_skipn. split; [reflexivity|].
    rewrite firstn_length. f_equal. lia.
Qed.

Lemma lsum_repeat d n : lsum (repeat d n) = n * d.
Proof. induction n as [|n IH]; cbn [repeat]; [reflexivity|]. rewrite lsum_cons, IH. lia. Qed.

Lemma map_const {A B} (b : B) (l : list A) : map (fun _ => b) l = repeat b (length l).
Proof. induction l; cbn; congruence. Qed.

Lemma ofold_nested {S A B} (f : S -> B -> option S) (g : A -> option (list B)) (h : A -> list B)
      (l : list A) s :
  (forall a, In a l -> g a = Some (h a)) ->
  ofold (fun s a => ls <- g a ;; ofold f ls s) l s = ofold f (concat (map h l)) s.
Proof.
  revert s; induction l as [|a t IH]; intros s H; cbn; [reflexivity|].
  rewrite (H a (or_introl eq_refl)). cbn [obind]. rewrite ofold_app.
  destruct (ofold f (h a) s); cbn; [|reflexivity]. apply IH. intros; apply H; now right.
Qed.

Lemma ofold_map {S A B} (f : S -> B -> option S) (g : A -> B) l s :
  ofold f (map g l) s = ofold (fun s a => f s (g a)) l s.
Proof.
  revert s; induction l as [|a t IH]; intro s; cbn; [reflexivity|]. destruct (f s (g a)); cbn; auto.
Qed.

Lemma ofold_ext {S A} (f g : S -> A -> option S) l s :
  (forall s a, In a l -> f s a = g s a) -> ofold f l s = ofold g l s.
Proof.
  revert s; induction l as [|a t IH]; intros s H; cbn; [reflexivity|].
  rewrite H by now left. destruct (g s a); cbn; [|reflexivity]. apply IH. intros; apply H; now right.
Qed.

Lemma fold_max_ge l x : x <= fold_left Nat.max l x /\ forall y, In y l -> y <= fold_left Nat.max l x.
Proof.
  revert x; induction l as [|a t IH]; intro x; cbn.
  - split; [lia|]. tauto.
  - destruct (IH (Nat.max x a)) as (H1 & H2). split; [lia|].
    intros y [<-|Hy]; [lia|auto].
Qed.

Lemma grid_index {A} (l : list A) dim n :
  n * dim <= length l ->
  concat (map (fun c => map (fun k => nth_error l (c * dim + k)) (seq 0 dim)) (seq 0 n))
  = map Some (firstn (n * dim) l).
Proof.
  induction n as [|n IH]; intro H; [reflexivity|].
  rewrite seq_S, map_app, concat_app. cbn [plus map concat]. rewrite app_nil_r, IH by lia.
  replace (S n * dim) with (n * dim + dim) by lia.
  rewrite <- (firstn_skipn (n * dim) (firstn (n * dim + dim) l)).
  rewrite firstn_firstn, skipn_firstn_comm.
  replace (Init.Nat.min (n * dim) (n * dim + dim)) with (n * dim) by lia.
  replace (n * dim + dim - n * dim) with dim by lia.
  rewrite map_app. f_equal. apply nth_error_ext. intro i.
  rewrite !nth_error_map_some. destruct (lt_dec i dim) as [Hi|Hi].
  - rewrite nth_error_seq by lia. cbn.
    destruct (nth_error_lt l (n * dim + i)) as (x & Hx); [lia|]. rewrite Hx.
    rewrite <- (firstn_skipn (n * dim) l), nth_error_app2 in Hx by (rewrite firstn_length; lia).
    rewrite firstn_length in Hx. replace (n * dim + i - Init.Nat.min (n * dim) (length l)) with i in Hx by lia.
    rewrite <- (firstn_skipn dim (skipn (n * dim) l)), nth_error_app1 in Hx
      by (rewrite firstn_length, skipn_length; lia).
    now rewrite Hx.
  - replace (nth_error (seq 0 dim) i) with (@None nat) by (symmetry; apply nth_error_None; rewrite seq_length; lia).
    replace (nth_error (firstn dim (skipn (n * dim) l)) i) with (@None A); [reflexivity|].
    symmetry. apply nth_error_None. rewrite firstn_length. lia.
Qed.

Lemma ofold_grid {S A} (f : S -> A -> option S) (l : list A) dim n s :
  n * dim <= length l ->
  ofold (fun s c => ofold (fun s k => v <- nth_error l (c * dim + k) ;; f s v) (seq 0 dim) s) (seq 0 n) s
  = ofold f (firstn (n * dim) l) s.
Proof.
  intro H.
  transitivity (ofold (fun s (o : option A) => v <- o ;; f s v) (map Some (firstn (n * dim) l)) s).
  - rewrite <- (grid_index _ _ _ H).
    rewrite <- (ofold_nested _ (fun c => Some (map (fun k => nth_error l (c * dim + k)) (seq 0 dim))) _ _ _
                 (fun a _ => eq_refl)).
    apply ofold_ext. intros s0 c _. cbn [obind]. now rewrite ofold_map.
  - rewrite ofold_map. apply ofold_ext. reflexivity.
Qed.

Lemma map_fst_combine {A B} (a : list A) (b : list B) : length a <= length b -> map fst (combine a b) = a.
Proof.
  revert b; induction a as [|x t IH]; intros [|y b] H; cbn in *; auto; try lia. f_equal. apply IH. lia.
Qed.

Lemma filter_filter {A} (p q : A -> bool) l : filter p (filter q l) = filter (fun x => q x && p x) l.
Proof.
  induction l as [|x t IH]; cbn; [reflexivity|].
  destruct (q x); cbn; [destruct (p x); congruence|exact IH].
Qed.

Lemma filter_comm {A} (p q : A -> bool) l : filter p (filter q l) = filter q (filter p l).
Proof. rewrite !filter_filter. apply filter_ext. intro. apply andb_comm. Qed.

Lemma filter_all {A} (p : A -> bool) l : (forall x, In x l -> p x = true) -> filter p l = l.
Proof.
  induction l as [|x t IH]; intro H; cbn; [reflexivity|]. rewrite H by now left. f_equal.
  apply IH. intros; apply H; now right.
Qed.

Lemma filter_none {A} (p : A -> bool) l : (forall x, In x l -> p x = false) -> filter p l = [].
Proof.
  induction l as [|x t IH]; intro H; cbn; [reflexivity|]. rewrite H by now left.
  apply IH. intros; apply H; now right.
Qed.

Lemma filter_concat {A} (p : A -> bool) (L : list (list A)) : filter p (concat L) = concat (map (filter p) L).
Proof. induction L as [|x t IH]; cbn; [reflexivity|]. rewrite filter_app. now f_equal. Qed.

Lemma SS_app {A} (R : A -> A -> Prop) l1 l2 :
  StronglySorted R l1 -> StronglySorted R l2 -> (forall a b, In a l1 -> In b l2 -> R a b) ->
  StronglySorted R (l1 ++ l2).
Proof.
  induction 1 as [|x t Hs IH Hf]; intros H2 H; cbn; [exact H2|].
  constructor.
  - apply IH; [exact H2|]. intros; apply H; [now right|assumption].
  - apply Forall_app. split; [exact Hf|]. apply Forall_forall. intros y Hy. apply H; [now left|exact Hy].
Qed.

Lemma SS_filter {A} (R : A -> A -> Prop) p l : StronglySorted R l -> StronglySorted R (filter p l).
Proof.
  induction 1 as [|x t Hs IH Hf]; cbn; [constructor|].
  destruct (p x); [|exact IH]. constructor; [exact IH|].
  rewrite Forall_forall in *. intros y Hy. apply filter_In in Hy as (Hy & _). auto.
Qed.

Lemma SS_impl_in {A} (R R' : A -> A -> Prop) l :
  (forall a b, In a l -> In b l -> R a b -> R' a b) -> StronglySorted R l -> StronglySorted R' l.
Proof.
  intros H Hs. induction Hs as [|x t Hs IH Hf]; [constructor|]. constructor.
  - apply IH. intros; apply H; auto; now right.
  - rewrite Forall_forall in *. intros y Hy. apply H; [now left|now right|auto].
Qed.

Lemma removelast_nth {A} (l : list A) k : (S k < length l)%nat -> nth_error (removelast l) k = nth_error l k.
Proof.
  revert k; induction l as [|x t IH]; intros k H; cbn in H; [lia|].
  destruct t as [|y t]; cbn in H; [lia|]. change (removelast (x :: y :: t)) with (x :: removelast (y :: t)).
  destruct k; [reflexivity|]. cbn [nth_error]. apply IH. cbn. lia.
Qed.

Lemma upd_map {A B} (f : A -> B) l i v l' : upd l i v = Some l' -> upd (map f l) i (f v) = Some (map f l').
Proof.
  intro H. apply upd_split in H as (p & x & q & -> & <- & ->). rewrite !map_app. cbn.
  rewrite <- (map_length f p). apply upd_app_mid.
Qed.
