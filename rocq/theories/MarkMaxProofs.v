(** Proofs about [mark_maximum], for property C81. *)
From Verif Require Import Base BaseProofs MatrixCSR MatrixProofs MarkMax MarkMaxSpec.
From Coq Require Import Reals Lra.
Open Scope nat_scope.

Lemma Rltb_iff a b : Rltb a b = true <-> (a < b)%R.
Proof. unfold Rltb. destruct (Rlt_dec a b) as [L|L]; split; intro H; congruence || (try contradiction; auto). Qed.

Lemma fold_max_ok l : forall x, let m := fold_left (fun m y => if Rltb m y then y else m) l x in
  (m = x \/ In m l) /\ (x <= m)%R /\ forall e, In e l -> (e <= m)%R.
Proof.
  induction l as [|y l IH]; intros x m; [split; [now left|]; split; [apply Rle_refl|intros e []]|].
  unfold m. cbn [fold_left]. destruct (IH (if Rltb x y then y else x)) as (I1 & I2 & I3). set (m' := fold_left _ l _) in *.
  destruct (Rltb x y) eqn:E.
  - apply Rltb_iff in E. split; [destruct I1 as [I1|I1]; [right; left; auto|right; right; exact I1]|]. split; [lra|]. intros e [<-|He]; [exact I2|apply I3, He].
  - assert (N : ~ (x < y)%R) by (intro L; apply Rltb_iff in L; congruence).
    split; [destruct I1 as [I1|I1]; [left; exact I1|right; right; exact I1]|]. split; [exact I2|]. intros e [<-|He]; [lra|apply I3, He].
Qed.

Section Proofs.
Variables (lowest : R) (P : nat) (marker : nat -> list R) (theta : R).

Lemma marker_max_ok l : (l = [] /\ marker_max lowest l = lowest) \/ (In (marker_max lowest l) l /\ forall e, In e l -> (e <= marker_max lowest l)%R).
Proof.
  destruct l as [|x l]; [left; auto|right]. unfold marker_max. destruct (fold_max_ok l x) as (I1 & I2 & I3). set (m := fold_left _ l x) in *.
  split; [destruct I1 as [->|I1]; [now left|now right]|]. intros e [<-|He]; [exact I2|apply I3, He].
Qed.

Lemma fold_Rmax l : forall x, let m := fold_left Rmax l x in (m = x \/ In m l) /\ (x <= m)%R /\ forall e, In e l -> (e <= m)%R.
Proof.
  induction l as [|y l IH]; intros x m; [split; [now left|]; split; [apply Rle_refl|intros e []]|].
  unfold m. cbn [fold_left]. destruct (IH (Rmax x y)) as (I1 & I2 & I3). set (m' := fold_left _ l _) in *.
  pose proof (Rmax_l x y). pose proof (Rmax_r x y).
  split; [|split; [lra|intros e [<-|He]; [lra|apply I3, He]]].
  destruct I1 as [I1|I1]; [|right; right; exact I1]. rewrite I1. unfold Rmax. destruct (Rle_dec x y); [right; now left|now left].
Qed.

Lemma allmax_ok : 0 < P -> (forall q e, q < P -> In e (marker q) -> (lowest <= e)%R) -> (exists q e, q < P /\ In e (marker q)) ->
  largest P marker (marker_allmax lowest P marker).
Proof.
  intros HP Hl (q0 & e0 & Hq0 & He0). unfold marker_allmax.
  destruct (fold_Rmax (map (fun q => marker_max lowest (marker q)) (seq 1 (P - 1))) (marker_max lowest (marker 0))) as (I1 & I2 & I3).
  set (m := fold_left Rmax _ _) in *.
  assert (Ha : exists q, q < P /\ m = marker_max lowest (marker q)).
  { destruct I1 as [I1|I1]; [exists 0; auto|]. apply in_map_iff in I1. destruct I1 as (q & E & Hq). apply in_seq in Hq. exists q. split; [lia|auto]. }
  assert (Hb : forall q, q < P -> (marker_max lowest (marker q) <= m)%R).
  { intros [|q] Hq; [exact I2|]. apply I3, in_map_iff. exists (S q). split; [reflexivity|apply in_seq; lia]. }
  assert (Hu : forall q e, q < P -> In e (marker q) -> (e <= m)%R).
  { intros q e Hq He. destruct (marker_max_ok (marker q)) as [[E _]|[_ H]]; [rewrite E in He; contradiction|]. apply Rle_trans with (marker_max lowest (marker q)); [apply H, He|apply Hb, Hq]. }
  split; [|exact Hu]. destruct Ha as (q & Hq & Em). destruct (marker_max_ok (marker q)) as [[_ E]|[H _]]; [|exists q; split; [exact Hq|now rewrite Em]].
  (* the maximum is [lowest], so the indicator that exists is the maximum *)
  exists q0. split; [exact Hq0|]. pose proof (Hu q0 e0 Hq0 He0). pose proof (Hl q0 e0 Hq0 He0). replace m with e0; [exact He0|]. rewrite Em, E in *. lra.
Qed.

Lemma marked_list (f : R -> bool) l : forall k acc,
  fold_left (fun indices '(i, e) => if f e then indices ++ [i] else indices) (combine (seq k (length l)) l) acc =
  acc ++ map fst (filter (fun ie => f (snd ie)) (combine (seq k (length l)) l)).
Proof.
  induction l as [|x l IH]; intros k acc; cbn [length seq combine fold_left filter map snd fst]; [now rewrite app_nil_r|].
  rewrite IH. destruct (f x); [cbn [map fst]; now rewrite <- app_assoc|reflexivity].
Qed.

Lemma filter_sorted (f : R -> bool) l : forall k, StronglySorted lt (map fst (filter (fun ie => f (snd ie)) (combine (seq k (length l)) l))) /\
  forall i, In i (map fst (filter (fun ie => f (snd ie)) (combine (seq k (length l)) l))) <-> k <= i /\ exists e, nth_error l (i - k) = Some e /\ f e = true.
Proof.
  induction l as [|x l IH]; intro k; cbn [length seq combine filter map].
  - split; [constructor|]. intro i. split; [intros []|]. intros (_ & e & H & _). destruct (i - k); discriminate.
  - destruct (IH (S k)) as [I1 I2].
    assert (Hs : forall i, In i (map fst (filter (fun ie => f (snd ie)) (combine (seq (S k) (length l)) l))) <-> S k <= i /\ exists e, nth_error (x :: l) (i - k) = Some e /\ f e = true).
    { intro i. rewrite (I2 i). split; intros (H & e & He); (split; [exact H|exists e]); replace (i - k) with (S (i - S k)) in * by lia; exact He. }
    cbn [snd]. destruct (f x) eqn:E; cbn [map fst].
    + split.
      * constructor; [exact I1|]. apply Forall_forall. intros i Hi. apply Hs in Hi. lia.
      * intro i. cbn [In]. rewrite Hs. split.
        -- intros [<-|(H & He)]; [|split; [lia|exact He]]. split; [lia|]. exists x. rewrite Nat.sub_diag. auto.
        -- intros (H & He). destruct (Nat.eq_dec k i) as [->|N]; [now left|right; split; [lia|exact He]].
    + split; [exact I1|]. intro i. rewrite Hs. split; intros (H & e & He); (split; [lia|exists e; auto]) || idtac.
      split; [|exists e; exact He]. destruct (Nat.eq_dec k i) as [->|N]; [|lia]. rewrite Nat.sub_diag in He. destruct He as [He Hf]. cbn in He. congruence.
Qed.

Lemma mark_ok r : 0 < P -> r < P -> (forall q e, q < P -> In e (marker q) -> (lowest <= e)%R) -> (0 < theta < 1)%R ->
  exists l, mark_maximum lowest P marker theta r = Some l /\ StronglySorted lt l /\
  forall i, In i l <-> exists e m, nth_error (marker r) i = Some e /\ largest P marker m /\ (theta * m < e)%R.
Proof.
  intros HP Hr Hl [Ht0 Ht1]. unfold mark_maximum. rewrite (proj2 (Rltb_iff _ _) Ht0), (proj2 (Rltb_iff _ _) Ht1). cbn [negb orb].
  eexists. split; [reflexivity|]. unfold enum. rewrite marked_list. cbn [app].
  destruct (filter_sorted (is_marked theta (marker_allmax lowest P marker)) (marker r) 0) as [I1 I2]. split; [exact I1|].
  intro i. rewrite I2. rewrite Nat.sub_0_r. split.
  - intros (_ & e & He & Hm). exists e, (marker_allmax lowest P marker). split; [exact He|]. split; [|now apply Rltb_iff].
    apply allmax_ok; [exact HP|exact Hl|]. exists r, e. split; [exact Hr|]. now apply nth_error_In with i.
  - intros (e & m & He & Hm & Hlt). split; [lia|]. exists e. split; [exact He|]. apply Rltb_iff.
    replace (marker_allmax lowest P marker) with m; [exact Hlt|].
    assert (Ha : largest P marker (marker_allmax lowest P marker)) by (apply allmax_ok; [exact HP|exact Hl|]; exists r, e; split; [exact Hr|]; now apply nth_error_In with i).
    destruct Ha as [(q & Hq & Hi) Hu], Hm as [(q' & Hq' & Hi') Hu']. pose proof (Hu q' m Hq' Hi'). pose proof (Hu' q _ Hq Hi). lra.
Qed.
End Proofs.
