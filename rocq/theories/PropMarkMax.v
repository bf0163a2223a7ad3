(** Property C81. *)
From Verif Require Import Base MarkMax MarkMaxSpec MarkMaxProofs.
From Coq Require Import Reals Lra.
Open Scope nat_scope.

(** C81: on every process the indices, in increasing order, of the indicators larger than
    [theta] times the largest indicator of all processes *)
Theorem C81_marked :
  forall lowest P marker theta r, 0 < P -> r < P -> (forall q e, q < P -> In e (marker q) -> (lowest <= e)%R) -> (0 < theta < 1)%R ->
  exists l, mark_maximum lowest P marker theta r = Some l /\ StronglySorted lt l /\
  forall i, In i l <-> exists e m, nth_error (marker r) i = Some e /\ largest P marker m /\ (theta * m < e)%R.
Proof. exact mark_ok. Qed.
Print Assumptions C81_marked.

(** Where the largest indicator is, it is marked, if it is positive. *)
Theorem C81_largest_marked :
  forall lowest P marker theta r i m, r < P -> (forall q e, q < P -> In e (marker q) -> (lowest <= e)%R) -> (0 < theta < 1)%R ->
  largest P marker m -> (0 < m)%R -> nth_error (marker r) i = Some m ->
  exists l, mark_maximum lowest P marker theta r = Some l /\ In i l.
Proof.
  intros lowest P marker theta r i m Hr Hl Ht Hm Hp E. destruct (mark_ok lowest P marker theta r ltac:(lia) Hr Hl Ht) as (l & El & _ & Hi).
  exists l. split; [exact El|]. apply Hi. exists m, m. split; [exact E|]. split; [exact Hm|]. nra.
Qed.
Print Assumptions C81_largest_marked.

(** How the indicators are distributed does not matter. *)
Theorem C81_distribution :
  forall lowest P P' marker marker' theta r r' i i' e, r < P -> r' < P' ->
  (forall q e, q < P -> In e (marker q) -> (lowest <= e)%R) -> (0 < theta < 1)%R ->
  (forall x, (exists q, q < P /\ In x (marker q)) <-> exists q, q < P' /\ In x (marker' q)) ->
  nth_error (marker r) i = Some e -> nth_error (marker' r') i' = Some e ->
  exists l l', mark_maximum lowest P marker theta r = Some l /\ mark_maximum lowest P' marker' theta r' = Some l' /\ (In i l <-> In i' l').
Proof.
  intros lowest P P' marker marker' theta r r' i i' e Hr Hr' Hl Ht Hx Ei Ei'.
  assert (Hl' : forall q e, q < P' -> In e (marker' q) -> (lowest <= e)%R).
  { intros q x Hq Hi. destruct (proj2 (Hx x)) as (p & Hp & H); [exists q; auto|]. exact (Hl p x Hp H). }
  assert (Hm : forall m, largest P marker m <-> largest P' marker' m).
  { intro m. split; intros [H1 H2]; (split; [now apply Hx|]); intros q x Hq Hi.
    - destruct (proj2 (Hx x)) as (p & Hp & H); [exists q; auto|]. exact (H2 p x Hp H).
    - destruct (proj1 (Hx x)) as (p & Hp & H); [exists q; auto|]. exact (H2 p x Hp H). }
  destruct (mark_ok lowest P marker theta r ltac:(lia) Hr Hl Ht) as (l & El & _ & Hi).
  destruct (mark_ok lowest P' marker' theta r' ltac:(lia) Hr' Hl' Ht) as (l' & El' & _ & Hi').
  exists l, l'. split; [exact El|]. split; [exact El'|]. rewrite Hi, Hi'. split; intros (x & m & E & H1 & H2); exists e, m.
  - rewrite Ei in E. injection E as <-. split; [exact Ei'|]. split; [now apply Hm|exact H2].
  - rewrite Ei' in E. injection E as <-. split; [exact Ei|]. split; [now apply Hm|exact H2].
Qed.
Print Assumptions C81_distribution.

(** Example: three processes, the second has no indicators. *)
Definition mm_marker (r : nat) : list R := nth r [[1; 4]; []; [3; 8; 5]]%R [].
Example C81_hyps : (forall q e, q < 3 -> In e (mm_marker q) -> (-1000 <= e)%R) /\ largest 3 mm_marker 8 /\ nth_error (mm_marker 2) 2 = Some 5%R /\ ((1 / 2) * 8 < 5)%R /\ ~ ((1 / 2) * 8 < 4)%R.
Proof.
  assert (H : forall q e, q < 3 -> In e (mm_marker q) -> (-1000 <= e <= 8)%R) by (intros [|[|[|q]]] e Hq He; [| | |lia]; cbn in He; decompose [or] He; subst; try contradiction; lra).
  split; [intros q e Hq He; apply (H q e Hq He)|]. split; [split; [exists 2; split; [lia|]; cbn; auto|intros q e Hq He; apply (H q e Hq He)]|]. split; [reflexivity|]. lra.
Qed.

(** The documentation says that indicators equal to [theta] times the largest are marked too;
    and if all indicators are zero it would mark all, where the code marks none. *)
Theorem C81_documented_refuted :
  mark_maximum (-1000)%R 1 (fun _ => [2; 1]%R) (1 / 2) 0 = Some [0] /\ (1 >= (1 / 2) * 2)%R /\ largest 1 (fun _ => [2; 1]%R) 2 /\
  mark_maximum (-1000)%R 1 (fun _ => [0]%R) (1 / 2) 0 = Some [] /\ (0 >= (1 / 2) * 0)%R /\ largest 1 (fun _ => [0]%R) 0.
Proof.
  assert (L2 : largest 1 (fun _ => [2; 1]%R) 2) by (split; [exists 0; split; [lia|now left]|]; intros q e _ He; cbn in He; decompose [or] He; subst; try contradiction; lra).
  assert (L0 : largest 1 (fun _ => [0]%R) 0) by (split; [exists 0; split; [lia|now left]|]; intros q e _ He; cbn in He; decompose [or] He; subst; try contradiction; lra).
  assert (T : (0 < 1 / 2 < 1)%R) by lra.
  assert (R12 : forall a b : R, (a < b)%R -> Rltb a b = true) by (intros a b; apply Rltb_iff).
  assert (Rn : forall a b : R, ~ (a < b)%R -> Rltb a b = false) by (intros a b H; destruct (Rltb a b) eqn:E; [apply Rltb_iff in E; contradiction|reflexivity]).
  split.
  { unfold mark_maximum, marker_allmax, marker_max, is_marked. rewrite (R12 0%R (1 / 2)%R), (R12 (1 / 2)%R 1%R) by lra. cbn [negb orb Nat.sub seq map fold_left].
    rewrite (Rn 2%R 1%R) by lra. cbn [MatrixCSR.enum length seq combine fold_left]. rewrite (R12 (1 / 2 * 2)%R 2%R) by lra. rewrite (Rn (1 / 2 * 2)%R 1%R) by lra. reflexivity. }
  split; [lra|]. split; [exact L2|]. split.
  { unfold mark_maximum, marker_allmax, marker_max, is_marked. rewrite (R12 0%R (1 / 2)%R), (R12 (1 / 2)%R 1%R) by lra. cbn [negb orb Nat.sub seq map fold_left MatrixCSR.enum length combine].
    rewrite (Rn (1 / 2 * 0)%R 0%R) by lra. reflexivity. }
  split; [lra|exact L0].
Qed.
Print Assumptions C81_documented_refuted.
