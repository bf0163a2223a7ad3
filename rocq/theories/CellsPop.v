(** Proofs for Cells: moving entries from one list to another. *)
From Coq Require Import Permutation.
From Verif Require Import Base BaseProofs CellTypes Cells.
Open Scope Z_scope.

Notation zlen l := (Z.of_nat (length l)).

Lemma vec_pop_ok v i : - zlen v <= i < zlen v ->
  exists x r, vec_pop v i = Some (x, r) /\ Permutation (x :: r) v /\ zlen r + 1 = zlen v.
Proof.
  intros H. unfold vec_pop.
  set (pos := if i <? 0 then zlen v + i else i).
  assert (Hp : 0 <= pos < zlen v) by (unfold pos; destruct (Z.ltb_spec i 0); lia).
  clearbody pos. destruct (Z.ltb_spec pos 0); [lia|].
  destruct (nth_error v (Z.to_nat pos)) as [x|] eqn:E.
  2:{ apply nth_error_None in E. lia. }
  exists x, (firstn (Z.to_nat pos) v ++ skipn (S (Z.to_nat pos)) v).
  cbn [obind]. split; [reflexivity|].
  destruct (nth_error_split _ _ E) as (l1 & l2 & E1 & E2).
  assert (Hf : firstn (Z.to_nat pos) v = l1).
  { rewrite E1, <- E2, firstn_app, Nat.sub_diag, firstn_O, app_nil_r. now apply firstn_all2. }
  assert (Hs : skipn (S (Z.to_nat pos)) v = l2).
  { rewrite E1, <- E2, skipn_app, skipn_all2 by lia.
    replace (S (length l1) - length l1)%nat with 1%nat by lia. reflexivity. }
  rewrite Hf, Hs. split.
  - rewrite E1. apply Permutation_middle.
  - rewrite E1, !app_length. cbn [length]. lia.
Qed.

(** [k] entries were moved from the second list to the first. *)
Definition moved (k : Z) (s s' : list Z * list Z) : Prop :=
  Permutation (fst s' ++ snd s') (fst s ++ snd s) /\ zlen (snd s') + k = zlen (snd s).

Lemma moved_refl s : moved 0 s s.
Proof. split; [reflexivity|lia]. Qed.
Lemma moved_trans a b s1 s2 s3 : moved a s1 s2 -> moved b s2 s3 -> moved (a + b) s1 s3.
Proof. intros [P1 L1] [P2 L2]. split; [now rewrite P2|lia]. Qed.
Lemma moved_len a s s' : moved a s s' -> zlen (snd s') = zlen (snd s) - a.
Proof. intros [_ H]. lia. Qed.
Lemma moved_fst a s s' : moved a s s' -> zlen (fst s') = zlen (fst s) + a.
Proof. intros [H1 H2]. apply Permutation_length in H1. rewrite !app_length in H1. lia. Qed.

Lemma pop_push_ok s i : - zlen (snd s) <= i < zlen (snd s) ->
  exists s', pop_push s i = Some s' /\ moved 1 s s'.
Proof.
  intros H. destruct (vec_pop_ok _ _ H) as (x & r & E & P & L).
  exists (fst s ++ [x], r). unfold pop_push. rewrite E. cbn [obind]. split; [reflexivity|].
  split; cbn [fst snd]; [|lia].
  rewrite <- app_assoc. cbn [app]. now rewrite P.
Qed.

Lemma pop_loop_aux step (I : Z -> Z -> Prop) L n : forall k a s d,
  Z.of_nat a + Z.of_nat k = n -> zlen (snd s) = L - Z.of_nat a -> I (Z.of_nat a) d ->
  (forall i d, 0 <= i < n -> I i d -> - (L - i) <= d < L - i /\ I (i + 1) (d + step i)) ->
  exists s' d', ofold (fun (sd : (list Z * list Z) * Z) i =>
      s <- pop_push (fst sd) (snd sd) ;; Some (s, snd sd + step i)) (map Z.of_nat (seq a k)) (s, d) = Some (s', d')
    /\ moved (Z.of_nat k) s s'.
Proof.
  induction k as [|k IH]; intros a s d Hn Hl Hi H.
  - exists s, d. split; [reflexivity|apply moved_refl].
  - destruct (H (Z.of_nat a) d ltac:(lia) Hi) as [Hr Hi'].
    destruct (pop_push_ok s d ltac:(lia)) as (s1 & E1 & M1).
    cbn [seq map ofold fst snd]. rewrite E1. cbn [obind].
    destruct (IH (S a) s1 (d + step (Z.of_nat a))) as (s' & d' & E' & M').
    + lia.
    + rewrite (moved_len _ _ _ M1). lia.
    + now replace (Z.of_nat (S a)) with (Z.of_nat a + 1) by lia.
    + exact H.
    + exists s', d'. split; [exact E'|].
      replace (Z.of_nat (S k)) with (1 + Z.of_nat k) by lia. eapply moved_trans; eassumption.
Qed.

Lemma pop_loop_ok (I : Z -> Z -> Prop) n d step s L : 0 <= n -> zlen (snd s) = L -> I 0 d ->
  (forall i d, 0 <= i < n -> I i d -> - (L - i) <= d < L - i /\ I (i + 1) (d + step i)) ->
  exists s', pop_loop n d step s = Some s' /\ moved n s s'.
Proof.
  intros Hn Hl Hi H. unfold pop_loop, range.
  destruct (pop_loop_aux step I L n (Z.to_nat n) 0 s d) as (s' & d' & E & M);
    [lia|lia|exact Hi|exact H|].
  rewrite E. cbn [obind]. exists s'. split; [reflexivity|].
  now replace n with (Z.of_nat (Z.to_nat n)) by lia.
Qed.

(** Entries moved to a triangular list: row [i] has [n - i] entries. *)
Lemma face_aux (I : Z -> Z -> Prop) (J : Z -> Z -> Z -> Prop) next step L n : forall k a s d,
  Z.of_nat a + Z.of_nat k = n -> 2 * zlen (snd s) = 2 * L - Z.of_nat a * (2 * n - Z.of_nat a + 1) ->
  I (Z.of_nat a) d ->
  (forall i d, 0 <= i < n -> I i d -> J i 0 d /\ I (i + 1) (d + next i)) ->
  (forall i ii d, 0 <= i < n -> 0 <= ii < n - i -> J i ii d ->
     J i (ii + 1) (d + step i ii)
     /\ forall R, 2 * R = 2 * L - i * (2 * n - i + 1) - 2 * ii -> - R <= d < R) ->
  exists s' d', ofold (fun (sd : (list Z * list Z) * Z) i =>
      s <- pop_loop (n - i) (snd sd) (step i) (fst sd) ;; Some (s, snd sd + next i)) (map Z.of_nat (seq a k)) (s, d) = Some (s', d')
    /\ exists K, moved K s s' /\ 2 * K = Z.of_nat k * (Z.of_nat k + 1).
Proof.
  induction k as [|k IH]; intros a s d Hn Hl Hi HI HJ.
  - exists s, d. split; [reflexivity|]. exists 0. split; [apply moved_refl|lia].
  - destruct (HI (Z.of_nat a) d ltac:(lia) Hi) as [Hj Hi'].
    destruct (pop_loop_ok (J (Z.of_nat a)) (n - Z.of_nat a) d (step (Z.of_nat a)) s (zlen (snd s)))
      as (s1 & E1 & M1); [lia|reflexivity|exact Hj| |].
    { intros ii d0 Hii Hd. destruct (HJ (Z.of_nat a) ii d0 ltac:(lia) Hii Hd) as [Hj' Hr].
      split; [|exact Hj']. apply Hr. lia. }
    cbn [seq map ofold fst snd]. rewrite E1. cbn [obind].
    destruct (IH (S a) s1 (d + next (Z.of_nat a))) as (s' & d' & E' & K & M' & HK).
    + lia.
    + rewrite (moved_len _ _ _ M1). nia.
    + now replace (Z.of_nat (S a)) with (Z.of_nat a + 1) by lia.
    + exact HI.
    + exact HJ.
    + exists s', d'. split; [exact E'|]. exists ((n - Z.of_nat a) + K).
      split; [eapply moved_trans; eassumption|nia].
Qed.

Lemma face_loop_ok (I : Z -> Z -> Prop) (J : Z -> Z -> Z -> Prop) n start next step rem L :
  0 <= n -> zlen rem = L -> I 0 start ->
  (forall i d, 0 <= i < n -> I i d -> J i 0 d /\ I (i + 1) (d + next i)) ->
  (forall i ii d, 0 <= i < n -> 0 <= ii < n - i -> J i ii d ->
     J i (ii + 1) (d + step i ii)
     /\ forall R, 2 * R = 2 * L - i * (2 * n - i + 1) - 2 * ii -> - R <= d < R) ->
  exists dofs rem', face_loop n (fun i => n - i) start next step rem = Some (dofs, rem')
    /\ Permutation (dofs ++ rem') rem /\ 2 * zlen dofs = n * (n + 1) /\ zlen rem' + zlen dofs = zlen rem.
Proof.
  intros Hn Hl Hi HI HJ. unfold face_loop, range.
  destruct (face_aux I J next step L n (Z.to_nat n) 0 ([], rem) start) as ([dofs rem'] & d' & E & K & M & HK);
    [lia|cbn [snd]; lia|exact Hi|exact HI|exact HJ|].
  cbn [fst snd] in E |- *. rewrite E. cbn [obind]. exists dofs, rem'. split; [reflexivity|].
  pose proof (moved_fst _ _ _ M) as Hf. destruct M as [P Lm]. cbn [fst snd length app] in *.
  replace (Z.of_nat (Z.to_nat n)) with n in HK by lia.
  split; [exact P|split; [lia|lia]].
Qed.
