(** Proofs for Cells: the remainders of a tetrahedron are reordered. *)
From Coq Require Import Permutation.
From Verif Require Import Base BaseProofs CellTypes Cells CellsPop CellsTri.
Open Scope Z_scope.

Lemma tet_root_ok n g : 6 * n = g * (g + 1) * (g + 2) -> forall fuel k,
  0 <= k <= g -> g - k < Z.of_nat fuel -> tet_root fuel k n = Some g.
Proof.
  intros Hn. induction fuel as [|fuel IH]; intros k Hk Hf; [lia|].
  cbn [tet_root]. destruct (Z.ltb_spec (k * (k + 1) * (k + 2)) (6 * n)) as [H|H].
  - apply IH; [|lia]. destruct (Z.eq_dec k g) as [E|N]; [rewrite E in H; lia|lia].
  - destruct (Z.eq_dec k g) as [E|N]; [now rewrite E|].
    assert (k * (k + 1) * (k + 2) < g * (g + 1) * (g + 2)).
    { assert (k * (k + 1) <= g * (g + 1)) by nia. assert (0 <= k * (k + 1)) by nia. nia. }
    lia.
Qed.
Lemma tetrahedron_degree n d : 0 <= d -> 6 * n = (d + 1) * (d + 2) * (d + 3) ->
  cell_degree Tetrahedron n = Some d.
Proof.
  intros Hd Hn. unfold cell_degree.
  assert (Hb : d + 1 <= n).
  { assert (0 <= d * d) by nia. assert (0 <= d * d * d) by nia. nia. }
  rewrite (tet_root_ok n (d + 1)); [|rewrite Hn; ring|lia|lia].
  cbn [obind]. destruct (Z.eqb_spec ((d + 1) * (d + 1 + 1) * (d + 1 + 2)) (6 * n)) as [E|N];
    [f_equal; lia|exfalso; apply N; rewrite Hn; ring].
Qed.

Lemma le_square a : 0 <= a -> a <= a * a.
Proof. nia. Qed.
Lemma le_cube a : 0 <= a -> a <= a * a * a.
Proof. nia. Qed.
(** Nonnegative products of up to three of two nonnegative numbers *)
Ltac nonneg := repeat first [assumption | apply Z.add_nonneg_nonneg | apply Z.mul_nonneg_nonneg | discriminate].
Ltac mono2 a b :=
  pose proof (le_square a ltac:(assumption)); pose proof (le_square b ltac:(assumption));
  assert (0 <= a * a) by nonneg; assert (0 <= a * b) by nonneg; assert (0 <= b * b) by nonneg;
  assert (0 <= a * a * a) by nonneg; assert (0 <= a * a * b) by nonneg;
  assert (0 <= a * b * b) by nonneg; assert (0 <= b * b * b) by nonneg.

Lemma bounds p q x R : 6 * x = p -> 6 * R = p + q -> 0 <= p -> 0 < q -> - R <= x < R.
Proof. lia. Qed.

Lemma row1 g i j x L K R : 0 <= i -> 0 <= j < g - 3 - i ->
  6 * L = g * (g + 1) * (g + 2) - 24 - 36 * (g - 2) - 0 * (6 * K) -> 2 * K = (g - 3) * (g - 2) ->
  2 * R = 2 * L - i * (2 * (g - 3) - i + 1) - 2 * j ->
  6 * x = 3 * (g - 3) * (g - 2) + (g - 2) * (g - 1) * g - (g - 2 - i) * (g - 1 - i) * (g - i) - 6 * i -> - R <= x < R.
Proof.
  intros Hi [Hj Hm] HL HK HR Hx. remember (g - 4 - i - j) as m eqn:Em.
  assert (Eg : g = i + j + m + 4) by lia. assert (H0 : 0 <= m) by lia. clear Em Hm.
  apply (bounds (i*i*i + 3*i*i*j + 3*i*i*m + 3*i*j*j + 6*i*j*m + 3*i*m*m + 12*i*i + 24*i*j + 24*i*m + 3*j*j + 6*j*m + 3*m*m + 29*i + 9*j + 9*m + 6) ((j*j*j + 3*j*j*m + 3*j*m*m + m*m*m + 12*j*j + 24*j*m + 12*m*m + 23*j + 29*m) + 18)).
  - rewrite Hx, Eg. ring.
  - replace (6 * R) with (6 * L - 3 * i * (2 * (g - 3) - i + 1) - 6 * j) by lia.
    rewrite HL. replace (6 * K) with (3 * ((g - 3) * (g - 2))) by lia. rewrite Eg. ring.
  - nonneg.
  - apply Z.add_nonneg_pos; [nonneg|reflexivity].
Qed.
Lemma row2 g i j x L K R : 0 <= i -> 0 <= j < g - 3 - i ->
  6 * L = g * (g + 1) * (g + 2) - 24 - 36 * (g - 2) - 1 * (6 * K) -> 2 * K = (g - 3) * (g - 2) ->
  2 * R = 2 * L - i * (2 * (g - 3) - i + 1) - 2 * j ->
  6 * x = 6 * (g * g - 4 * g + 2) - 3 * i * (i + 3) + (g - 3) * (g - 2) * (g - 1) - (g - 3 - j) * (g - 2 - j) * (g - 1 - j) - 6 * j * (2 + i) -> - R <= x < R.
Proof.
  intros Hi [Hj Hm] HL HK HR Hx. remember (g - 4 - i - j) as m eqn:Em.
  assert (Eg : g = i + j + m + 4) by lia. assert (H0 : 0 <= m) by lia. clear Em Hm.
  apply (bounds (3*i*i*j + 3*i*j*j + 6*i*j*m + j*j*j + 3*j*j*m + 3*j*m*m + 3*i*i + 18*i*j + 12*i*m + 12*j*j + 24*j*m + 6*m*m + 15*i + 23*j + 24*m + 12) ((i*i*i + 3*i*i*m + 3*i*m*m + m*m*m + 6*i*i + 6*i*m + 6*m*m + 5*i + 5*m) + 6)).
  - rewrite Hx, Eg. ring.
  - replace (6 * R) with (6 * L - 3 * i * (2 * (g - 3) - i + 1) - 6 * j) by lia.
    rewrite HL. replace (6 * K) with (3 * ((g - 3) * (g - 2))) by lia. rewrite Eg. ring.
  - nonneg.
  - apply Z.add_nonneg_pos; [nonneg|reflexivity].
Qed.
Lemma row3 g i j x L K R : 0 <= i -> 0 <= j < g - 3 - i ->
  6 * L = g * (g + 1) * (g + 2) - 24 - 36 * (g - 2) - 2 * (6 * K) -> 2 * K = (g - 3) * (g - 2) ->
  2 * R = 2 * L - i * (2 * (g - 3) - i + 1) - 2 * j ->
  6 * x = 3 * (g - 3) * (g - 2) + 3 * i * (2 * (g - 4) - i + 1) + (g - 3) * (g - 2) * (g - 1) - (g - 3 - j) * (g - 2 - j) * (g - 1 - j) - 6 * j * (1 + 2 * i) -> - R <= x < R.
Proof.
  intros Hi [Hj Hm] HL HK HR Hx. remember (g - 4 - i - j) as m eqn:Em.
  assert (Eg : g = i + j + m + 4) by lia. assert (H0 : 0 <= m) by lia. clear Em Hm.
  apply (bounds (3*i*i*j + 3*i*j*j + 6*i*j*m + j*j*j + 3*j*j*m + 3*j*m*m + 6*i*i + 12*i*j + 12*i*m + 9*j*j + 18*j*m + 3*m*m + 12*i + 14*j + 9*m + 6) ((i*i*i - i) + (3*i*i*m + 3*i*m*m + m*m*m + 6*m*m + 11*m) + 6)).
  - rewrite Hx, Eg. ring.
  - replace (6 * R) with (6 * L - 3 * i * (2 * (g - 3) - i + 1) - 6 * j) by lia.
    rewrite HL. replace (6 * K) with (3 * ((g - 3) * (g - 2))) by lia. rewrite Eg. ring.
  - nonneg.
  - pose proof (le_cube i Hi). apply Z.add_nonneg_pos; [apply Z.add_nonneg_nonneg; [lia|nonneg]|reflexivity].
Qed.
Lemma row4 g i j x L K R : 0 <= i -> 0 <= j < g - 3 - i ->
  6 * L = g * (g + 1) * (g + 2) - 24 - 36 * (g - 2) - 3 * (6 * K) -> 2 * K = (g - 3) * (g - 2) ->
  2 * R = 2 * L - i * (2 * (g - 3) - i + 1) - 2 * j ->
  6 * x = 6 * j * (g - 4 - i) - 3 * j * (j - 1) -> - R <= x < R.
Proof.
  intros Hi [Hj Hm] HL HK HR Hx. remember (g - 4 - i - j) as m eqn:Em.
  assert (Eg : g = i + j + m + 4) by lia. assert (H0 : 0 <= m) by lia. clear Em Hm.
  apply (bounds (3*j*j + 6*j*m + 3*j) ((i*i*i + 3*i*i*j + 3*i*i*m + 3*i*j*j + 6*i*j*m + 3*i*m*m + j*j*j + 3*j*j*m + 3*j*m*m + m*m*m + 3*i*i + 6*i*j + 6*i*m + 3*j*j + 6*j*m + 6*m*m + 2*i + 2*j + 11*m) + 6)).
  - rewrite Hx, Eg. ring.
  - replace (6 * R) with (6 * L - 3 * i * (2 * (g - 3) - i + 1) - 6 * j) by lia.
    rewrite HL. replace (6 * K) with (3 * ((g - 3) * (g - 2))) by lia. rewrite Eg. ring.
  - nonneg.
  - apply Z.add_nonneg_pos; [nonneg|reflexivity].
Qed.

Section Round.
Variable g : Z.
Notation V L := (6 * L = g * (g + 1) * (g + 2) - 24).

Lemma edges_ok s : 2 < g -> V (zlen (snd s)) ->
  exists s',
    (s <- pop_loop (g - 2) 0 (fun _ => 0) s ;;
     s <- pop_loop (g - 2) (g - 2) (fun i => g - 3 - i) s ;;
     s <- pop_loop (g - 2) ((g - 2) * (g - 1) / 2 - 1) (fun i => - (2 + i)) s ;;
     s <- pop_loop (g - 2) ((g - 3) * (g - 2) / 2) (fun i => (g - i) * (g - i - 1) / 2 - 1) s ;;
     s <- pop_loop (g - 2) ((g - 3) * (g - 2) / 2 + g - 3)
            (fun i => (g - 2 - i) * (g - 1 - i) / 2 + g - 4 - i) s ;;
     pop_loop (g - 2) ((g - 3) * (g - 2) / 2 + g - 3 + (g - 2) * (g - 1) / 2 - 1)
            (fun i => (g - 3 - i) * (g - 2 - i) / 2 + g - i - 5) s) = Some s'
    /\ moved (6 * (g - 2)) s s'.
Proof.
  intros Hg Hl.
  destruct (pop_loop_ok (fun _ x => x = 0) (g - 2) 0 (fun _ => 0) s (zlen (snd s))) as (s1 & E1 & M1);
    [lia|reflexivity|reflexivity| |].
  { intros i x Hi Hx. remember (g - 3 - i) as m. assert (Hm : g = i + m + 3) by lia.
    assert (0 <= m) by lia. clear Heqm. subst g x. destruct Hi as [Hi _]. mono2 i m. split; lia. }
  pose proof (moved_len _ _ _ M1) as L1. rewrite E1. cbn [obind].
  destruct (pop_loop_ok (fun i x => 2 * x = 2 * (g - 2) + i * (2 * (g - 3) - i + 1)) (g - 2) (g - 2)
     (fun i => g - 3 - i) s1 (zlen (snd s1))) as (s2 & E2 & M2);
    [lia|reflexivity|lia| |].
  { intros i x Hi Hx. remember (g - 3 - i) as m. assert (Hm : g = i + m + 3) by lia.
    assert (0 <= m) by lia. clear Heqm. subst g. destruct Hi as [Hi _]. mono2 i m. split; lia. }
  pose proof (moved_len _ _ _ M2) as L2. rewrite E2. cbn [obind].
  destruct (pop_loop_ok (fun i x => 2 * x = (g - 2) * (g - 1) - 2 - i * (i + 3)) (g - 2) ((g - 2) * (g - 1) / 2 - 1)
     (fun i => - (2 + i)) s2 (zlen (snd s2))) as (s3 & E3 & M3);
    [lia|reflexivity|halves; lia| |].
  { intros i x Hi Hx. remember (g - 3 - i) as m. assert (Hm : g = i + m + 3) by lia.
    assert (0 <= m) by lia. clear Heqm. subst g. destruct Hi as [Hi _]. mono2 i m. split; lia. }
  pose proof (moved_len _ _ _ M3) as L3. rewrite E3. cbn [obind].
  (* the sums of steps are differences of tetrahedral numbers *)
  destruct (pop_loop_ok (fun i x => 6 * x = 3 * (g - 3) * (g - 2)
       + (g - 1) * g * (g + 1) - (g - i - 1) * (g - i) * (g - i + 1) - 6 * i)
     (g - 2) ((g - 3) * (g - 2) / 2)
     (fun i => (g - i) * (g - i - 1) / 2 - 1) s3 (zlen (snd s3))) as (s4 & E4 & M4);
    [lia|reflexivity|halves; lia| |].
  { intros i x Hi Hx. halves. remember (g - 3 - i) as m. assert (Hm : g = i + m + 3) by lia.
    assert (0 <= m) by lia. clear Heqm. subst g. destruct Hi as [Hi _]. mono2 i m. split; lia. }
  pose proof (moved_len _ _ _ M4) as L4. rewrite E4. cbn [obind].
  destruct (pop_loop_ok (fun i x => 6 * x = 3 * (g - 3) * (g - 2) + 6 * (g - 3)
       + (g - 2) * (g - 1) * g - (g - 2 - i) * (g - 1 - i) * (g - i)
       + 3 * i * (2 * (g - 4) - i + 1))
     (g - 2) ((g - 3) * (g - 2) / 2 + g - 3)
     (fun i => (g - 2 - i) * (g - 1 - i) / 2 + g - 4 - i) s4 (zlen (snd s4))) as (s5 & E5 & M5);
    [lia|reflexivity|halves; lia| |].
  { intros i x Hi Hx. halves. remember (g - 3 - i) as m. assert (Hm : g = i + m + 3) by lia.
    assert (0 <= m) by lia. clear Heqm. subst g. destruct Hi as [Hi _]. mono2 i m. split; lia. }
  pose proof (moved_len _ _ _ M5) as L5. rewrite E5. cbn [obind].
  destruct (pop_loop_ok (fun i x => 6 * x = 3 * (g - 3) * (g - 2) + 6 * (g - 3) + 3 * (g - 2) * (g - 1) - 6
       + (g - 3) * (g - 2) * (g - 1) - (g - 3 - i) * (g - 2 - i) * (g - 1 - i)
       + 3 * i * (2 * (g - 5) - i + 1))
     (g - 2) ((g - 3) * (g - 2) / 2 + g - 3 + (g - 2) * (g - 1) / 2 - 1)
     (fun i => (g - 3 - i) * (g - 2 - i) / 2 + g - i - 5) s5 (zlen (snd s5))) as (s6 & E6 & M6);
    [lia|reflexivity|halves; lia| |].
  { intros i x Hi Hx. halves. remember (g - 3 - i) as m. assert (Hm : g = i + m + 3) by lia.
    assert (0 <= m) by lia. clear Heqm. subst g. destruct Hi as [Hi _]. mono2 i m. split; lia. }
  exists s6. split; [exact E6|].
  replace (6 * (g - 2)) with ((g - 2) + ((g - 2) + ((g - 2) + ((g - 2) + ((g - 2) + (g - 2)))))) by ring.
  repeat (eapply moved_trans; [eassumption|]). exact M6.
Qed.

Lemma faces_ok s : 3 < g -> 6 * zlen (snd s) = g * (g + 1) * (g + 2) - 24 - 36 * (g - 2) ->
  exists s' K,
    (s <- add_face s (g - 3) (fun i => g - 3 - i) ((g - 3) * (g - 2) / 2)
            (fun i => (g - 2 - i) * (g - 1 - i) / 2 - 1) (fun _ _ => 0) ;;
     s <- add_face s (g - 3) (fun i => g - 3 - i) (g * g - 4 * g + 2)
            (fun i => - (2 + i)) (fun i ii => (g - 3 - ii) * (g - 3 - ii + 1) / 2 - 2 - i) ;;
     s <- add_face s (g - 3) (fun i => g - 3 - i) ((g - 3) * (g - 2) / 2)
            (fun i => g - 4 - i) (fun i ii => (g - 3 - ii) * (g - 3 - ii + 1) / 2 - 1 - 2 * i) ;;
     add_face s (g - 3) (fun i => g - 3 - i) 0 (fun _ => 0) (fun i ii => g - 4 - i - ii)) = Some s'
    /\ moved (4 * K) s s' /\ 2 * K = (g - 3) * (g - 2).
Proof.
  intros Hg Hl.
  assert (HK : exists K, 2 * K = (g - 3) * (g - 2)).
  { exists ((g - 3) * (g - 2) / 2). apply half. lia. }
  destruct HK as [K HK].
  assert (HK' : 2 * K = (g - 3) * (g - 3 + 1)) by (rewrite HK; ring).
  pose (I1 := fun i x => 6 * x = 3 * (g - 3) * (g - 2) + (g - 2) * (g - 1) * g - (g - 2 - i) * (g - 1 - i) * (g - i) - 6 * i).
  destruct (add_face_ok I1 (fun i _ x => I1 i x) s (g - 3) ((g - 3) * (g - 2) / 2)
     (fun i => (g - 2 - i) * (g - 1 - i) / 2 - 1) (fun _ _ => 0) (zlen (snd s)) K)
    as (s1 & E1 & M1); [lia|reflexivity|unfold I1; halves; lia|exact HK'| | |]; unfold I1.
  { intros i x Hi Hx. split; [exact Hx|]. halves. lia. }
  { intros i j x Hi Hj Hx. split; [clear - Hx; lia|]. intros R HR.
    apply (row1 g i j x _ K R (proj1 Hi) Hj) with (2 := HK) (3 := HR) (4 := Hx). clear - Hl HK; lia. }
  pose proof (moved_len _ _ _ M1) as L1. rewrite E1. cbn [obind]. clear E1 I1.
  destruct (add_face_ok (fun i x => 6 * x = 6 * (g * g - 4 * g + 2) - 3 * i * (i + 3))
     (fun i j x => 6 * x = 6 * (g * g - 4 * g + 2) - 3 * i * (i + 3) + (g - 3) * (g - 2) * (g - 1)
        - (g - 3 - j) * (g - 2 - j) * (g - 1 - j) - 6 * j * (2 + i))
     s1 (g - 3) (g * g - 4 * g + 2)
     (fun i => - (2 + i)) (fun i ii => (g - 3 - ii) * (g - 3 - ii + 1) / 2 - 2 - i) (zlen (snd s1)) K)
    as (s2 & E2 & M2); [lia|reflexivity|lia|exact HK'| | |].
  { intros i x Hi Hx. split; lia. }
  { intros i j x Hi Hj Hx. split; [clear - Hx; halves; lia|]. intros R HR.
    apply (row2 g i j x _ K R (proj1 Hi) Hj) with (2 := HK) (3 := HR) (4 := Hx). clear - Hl HK L1; lia. }
  pose proof (moved_len _ _ _ M2) as L2. rewrite E2. cbn [obind]. clear E2.
  destruct (add_face_ok (fun i x => 6 * x = 3 * (g - 3) * (g - 2) + 3 * i * (2 * (g - 4) - i + 1))
     (fun i j x => 6 * x = 3 * (g - 3) * (g - 2) + 3 * i * (2 * (g - 4) - i + 1) + (g - 3) * (g - 2) * (g - 1)
        - (g - 3 - j) * (g - 2 - j) * (g - 1 - j) - 6 * j * (1 + 2 * i))
     s2 (g - 3) ((g - 3) * (g - 2) / 2)
     (fun i => g - 4 - i) (fun i ii => (g - 3 - ii) * (g - 3 - ii + 1) / 2 - 1 - 2 * i) (zlen (snd s2)) K)
    as (s3 & E3 & M3); [lia|reflexivity|halves; lia|exact HK'| | |].
  { intros i x Hi Hx. split; lia. }
  { intros i j x Hi Hj Hx. split; [clear - Hx; halves; lia|]. intros R HR.
    apply (row3 g i j x _ K R (proj1 Hi) Hj) with (2 := HK) (3 := HR) (4 := Hx). clear - Hl HK L1 L2; lia. }
  pose proof (moved_len _ _ _ M3) as L3. rewrite E3. cbn [obind]. clear E3.
  destruct (add_face_ok (fun i x => x = 0)
     (fun i j x => 6 * x = 6 * j * (g - 4 - i) - 3 * j * (j - 1))
     s3 (g - 3) 0 (fun i => 0) (fun i ii => g - 4 - i - ii) (zlen (snd s3)) K)
    as (s4 & E4 & M4); [lia|reflexivity|lia|exact HK'| | |].
  { intros i x Hi Hx. split; lia. }
  { intros i j x Hi Hj Hx. split; [clear - Hx; lia|]. intros R HR.
    apply (row4 g i j x _ K R (proj1 Hi) Hj) with (2 := HK) (3 := HR) (4 := Hx). clear - Hl HK L1 L2 L3; lia. }
  exists s4, K. split; [exact E4|]. split; [|exact HK].
  replace (4 * K) with (K + (K + (K + K))) by ring.
  repeat (eapply moved_trans; [eassumption|]). exact M4.
Qed.
End Round.

Lemma tet_round_ok d s : 1 <= d -> 6 * zlen (snd s) = (d + 1) * (d + 2) * (d + 3) ->
  exists s' k, tet_round s = Some s' /\ moved k s s' /\ 0 < k /\ 6 * zlen (snd s') = (d - 3) * (d - 2) * (d - 1).
Proof.
  intros Hd Hl. unfold tet_round. rewrite (tetrahedron_degree _ d) by lia. cbn [obind].
  set (g := d + 1). assert (Hl' : 6 * zlen (snd s) = g * (g + 1) * (g + 2)) by (unfold g; rewrite Hl; ring).
  assert (Hd' : d = g - 1) by (unfold g; lia). clearbody g. clear Hl. subst d.
  assert (Hb : exists m, 0 <= m /\ g = m + 2) by (exists (g - 2); lia).
  destruct Hb as (m & Hm & Eg). mono2 m m.
  destruct (pop_push_ok s 0) as (s1 & E1 & M1); [subst g; lia|].
  pose proof (moved_len _ _ _ M1) as L1. rewrite E1. cbn [obind].
  destruct (pop_push_ok s1 (g - 2)) as (s2 & E2 & M2); [subst g; lia|].
  pose proof (moved_len _ _ _ M2) as L2. rewrite E2. cbn [obind].
  destruct (pop_push_ok s2 (g * (g + 1) / 2 - 3)) as (s3 & E3 & M3); [halves; subst g; lia|].
  pose proof (moved_len _ _ _ M3) as L3. rewrite E3. cbn [obind].
  destruct (pop_push_ok s3 (-1)) as (s4 & E4 & M4); [subst g; lia|].
  pose proof (moved_len _ _ _ M4) as L4. rewrite E4. cbn [obind].
  assert (M : moved (1 + (1 + (1 + 1))) s s4) by (repeat (eapply moved_trans; [eassumption|]); exact M4).
  assert (L : zlen (snd s4) = zlen (snd s) - 4) by lia.
  clear E1 E2 E3 E4 M1 M2 M3 M4 L1 L2 L3 L4.
  destruct (Z.ltb_spec 2 g) as [G2|G2].
  2:{ assert (g = 2) by lia. destruct (Z.ltb_spec 3 g); [lia|]. cbn [obind].
      exists s4, (1 + (1 + (1 + 1))). split; [reflexivity|]. split; [exact M|]. split; [lia|].
      replace g with 2 in * by lia. lia. }
  destruct (edges_ok g s4 G2 ltac:(lia)) as (s5 & E5 & M5).
  rewrite E5. cbn [obind]. pose proof (moved_len _ _ _ M5) as L5.
  pose proof (moved_trans _ _ _ _ _ M M5) as M6. clear E5 M5.
  destruct (Z.ltb_spec 3 g) as [G3|G3].
  2:{ exists s5, (1 + (1 + (1 + 1)) + 6 * (g - 2)). split; [reflexivity|]. split; [exact M6|]. split; [lia|].
      replace g with 3 in * by lia. lia. }
  destruct (faces_ok g s5 G3 ltac:(lia)) as (s6 & K & E6 & M7 & HK).
  exists s6, (1 + (1 + (1 + 1)) + 6 * (g - 2) + 4 * K). split; [exact E6|].
  split; [eapply moved_trans; eassumption|]. pose proof (moved_len _ _ _ M7) as L7.
  split; [assert (0 <= (g - 3) * (g - 2)) by (apply Z.mul_nonneg_nonneg; lia); lia|lia].
Qed.

Lemma tet_loop_ok : forall fuel s d, (length (snd s) < fuel)%nat ->
  -1 <= d -> 6 * zlen (snd s) = (d + 1) * (d + 2) * (d + 3) ->
  exists m, tet_loop fuel s = Some m /\ Permutation m (fst s ++ snd s).
Proof.
  induction fuel as [|fuel IH]; intros [mp rem] d Hf Hd Hl; cbn [fst snd] in *; [lia|].
  cbn [tet_loop fst snd]. destruct rem as [|x [|y r]] eqn:Er.
  - exists mp. split; [reflexivity|]. now rewrite app_nil_r.
  - exists (mp ++ [x]). split; reflexivity.
  - rewrite <- Er in *.
    assert (H2 : 2 <= zlen rem) by (rewrite Er; cbn [length]; lia). clear Er x y r.
    assert (H1 : 1 <= d).
    { destruct (Z.eq_dec d (-1)) as [E|]; [rewrite E in Hl; lia|].
      destruct (Z.eq_dec d 0) as [E|]; [rewrite E in Hl; lia|lia]. }
    destruct (tet_round_ok d (mp, rem)) as (s' & k & E & M & Hk & L); [lia|exact Hl|].
    rewrite E. cbn [obind]. pose proof (moved_len _ _ _ M) as Lk. cbn [snd] in Lk.
    destruct (IH s' (Z.max (-1) (d - 4))) as (m & Em & Pm); [lia|lia| |].
    + rewrite L. clear - H1. destruct (Z.leb_spec 3 d) as [G|G].
      * rewrite Z.max_r by lia. ring.
      * rewrite Z.max_l by lia. assert (D : d = 1 \/ d = 2) by lia. destruct D as [D|D]; rewrite D; reflexivity.
    + exists m. split; [exact Em|]. rewrite Pm. apply (proj1 M).
Qed.

Lemma tetrahedron_remainders_ok rem d : -1 <= d -> 6 * zlen rem = (d + 1) * (d + 2) * (d + 3) ->
  exists m, vtk_tetrahedron_remainders rem = Some m /\ Permutation m rem.
Proof.
  intros Hd Hl. unfold vtk_tetrahedron_remainders.
  apply (tet_loop_ok (S (length rem)) ([], rem) d); cbn [snd]; [lia|exact Hd|exact Hl].
Qed.
