(** Proofs for Cells: the remainders of a triangle and of a tetrahedron are reordered. *)
From Coq Require Import Permutation.
From Verif Require Import Base BaseProofs CellTypes Cells CellsPop.
Open Scope Z_scope.

Lemma half a b : b = a + 1 \/ a = b + 1 -> 2 * (a * b / 2) = a * b.
Proof.
  intros H. assert (E : (a * b) mod 2 = 0).
  { destruct (Z.Even_or_Odd a) as [[k Hk]|[k Hk]].
    - rewrite Hk. replace (2 * k * b) with (k * b * 2) by ring. apply Z_mod_mult.
    - destruct H as [H|H].
      + rewrite H, Hk. replace ((2 * k + 1) * (2 * k + 1 + 1)) with ((2 * k + 1) * (k + 1) * 2) by ring. apply Z_mod_mult.
      + assert (Hb : b = 2 * k) by lia. rewrite Hb. replace (a * (2 * k)) with (a * k * 2) by ring. apply Z_mod_mult. }
  pose proof (Z.div_mod (a * b) 2 ltac:(lia)). lia.
Qed.
(** Replaces every half of a product of neighbours by its double. *)
Ltac halves := repeat match goal with
  | |- context [?a * ?b / 2] =>
    let H := fresh "Hh" in let q := fresh "q" in
    pose proof (half a b ltac:(lia)) as H; set (q := a * b / 2) in *; clearbody q
  | K : context [?a * ?b / 2] |- _ =>
    let H := fresh "Hh" in let q := fresh "q" in
    pose proof (half a b ltac:(lia)) as H; set (q := a * b / 2) in *; clearbody q
  end.

Lemma triangle_degree n d : 0 <= d -> 2 * n = (d + 1) * (d + 2) -> cell_degree Triangle n = Some d.
Proof.
  intros Hd Hn. unfold cell_degree.
  replace (1 + 8 * n) with ((2 * d + 3) * (2 * d + 3)) by nia.
  rewrite Z.sqrt_square by lia.
  replace (2 * d + 3 - 1) with ((d + 1) * 2) by ring. rewrite Z.div_mul by lia.
  destruct (Z.eqb_spec (2 * n) ((d + 1) * (d + 1 + 1))); [f_equal; lia|nia].
Qed.

Lemma tri_round_ok d s : 1 <= d -> 2 * zlen (snd s) = (d + 1) * (d + 2) ->
  exists s', tri_round s = Some s' /\ moved (3 * d) s s'.
Proof.
  intros Hd Hl. unfold tri_round.
  rewrite (triangle_degree _ d) by lia. cbn [obind].
  destruct (pop_push_ok s 0) as (s1 & E1 & M1); [nia|].
  pose proof (moved_len _ _ _ M1) as L1.
  destruct (pop_push_ok s1 (d - 1)) as (s2 & E2 & M2); [nia|].
  pose proof (moved_len _ _ _ M2) as L2.
  destruct (pop_push_ok s2 (-1)) as (s3 & E3 & M3); [nia|].
  pose proof (moved_len _ _ _ M3) as L3.
  rewrite E1. cbn [obind]. rewrite E2. cbn [obind]. rewrite E3. cbn [obind].
  destruct (pop_loop_ok (fun _ x => x = 0) (d - 1) 0 (fun _ => 0) s3 (zlen (snd s3))) as (s4 & E4 & M4);
    [lia|reflexivity|reflexivity|intros i x Hi Hx; split; [nia|lia]|].
  pose proof (moved_len _ _ _ M4) as L4.
  rewrite E4. cbn [obind].
  destruct (pop_loop_ok (fun i x => 2 * x = - ((d - i) * (d - i - 1))) (d - 1) (- (d * (d - 1) / 2))
              (fun i => d - (i + 1)) s4 (zlen (snd s4))) as (s5 & E5 & M5);
    [lia|reflexivity|halves; lia| |].
  { intros i x Hi Hx. remember (d - 2 - i) as m. assert (Hm : d = i + m + 2) by lia.
    assert (0 <= m) by lia. subst d. split; nia. }
  pose proof (moved_len _ _ _ M5) as L5.
  rewrite E5. cbn [obind].
  destruct (pop_loop_ok (fun i x => 2 * x = - (2 + i * (i + 1))) (d - 1) (-1)
              (fun i => - (i + 1)) s5 (zlen (snd s5))) as (s6 & E6 & M6);
    [lia|reflexivity|lia| |].
  { intros i x Hi Hx. remember (d - 2 - i) as m. assert (Hm : d = i + m + 2) by lia.
    assert (0 <= m) by lia. subst d. split; nia. }
  exists s6. split; [exact E6|].
  replace (3 * d) with (1 + (1 + (1 + ((d - 1) + ((d - 1) + (d - 1)))))) by ring.
  repeat (eapply moved_trans; [eassumption|]). exact M6.
Qed.

Lemma tri_loop_ok : forall fuel s d, (length (snd s) < fuel)%nat ->
  -1 <= d -> 2 * zlen (snd s) = (d + 1) * (d + 2) ->
  exists m, tri_loop fuel s = Some m /\ Permutation m (fst s ++ snd s).
Proof.
  induction fuel as [|fuel IH]; intros [mp rem] d Hf Hd Hl; cbn [fst snd] in *; [lia|].
  cbn [tri_loop fst snd]. destruct rem as [|x [|y r]] eqn:Er.
  - exists mp. split; [reflexivity|]. now rewrite app_nil_r.
  - exists (mp ++ [x]). split; reflexivity.
  - rewrite <- Er in *.
    assert (H2 : 2 <= zlen rem) by (rewrite Er; cbn [length]; lia). clear Er x y r.
    assert (H1 : 1 <= d) by (destruct (Z.eq_dec d (-1)) as [E|]; [rewrite E in Hl; lia|]; destruct (Z.eq_dec d 0) as [E|]; [rewrite E in Hl; lia|lia]).
    destruct (tri_round_ok d (mp, rem)) as (s' & E & M); [lia|exact Hl|].
    rewrite E. cbn [obind]. pose proof (moved_len _ _ _ M) as L. cbn [snd] in L.
    destruct (IH s' (Z.max (-1) (d - 3))) as (m & Em & Pm); [lia|lia| |].
    + rewrite L. clear - Hl H1. destruct (Z.eq_dec d 1) as [E1|N1].
      * rewrite E1 in *. change (Z.max (-1) (1 - 3)) with (-1). lia.
      * rewrite Z.max_r by lia. lia.
    + exists m. split; [exact Em|]. rewrite Pm. apply (proj1 M).
Qed.

Lemma triangle_remainders_ok rem d : -1 <= d -> 2 * zlen rem = (d + 1) * (d + 2) ->
  exists m, vtk_triangle_remainders rem = Some m /\ Permutation m rem.
Proof.
  intros Hd Hl. unfold vtk_triangle_remainders.
  apply (tri_loop_ok (S (length rem)) ([], rem) d); cbn [snd]; [lia|exact Hd|exact Hl].
Qed.

Lemma add_face_ok (I : Z -> Z -> Prop) (J : Z -> Z -> Z -> Prop) s n start next step L K :
  0 <= n -> zlen (snd s) = L -> I 0 start -> 2 * K = n * (n + 1) ->
  (forall i d, 0 <= i < n -> I i d -> J i 0 d /\ I (i + 1) (d + next i)) ->
  (forall i ii d, 0 <= i < n -> 0 <= ii < n - i -> J i ii d ->
     J i (ii + 1) (d + step i ii)
     /\ forall R, 2 * R = 2 * L - i * (2 * n - i + 1) - 2 * ii -> - R <= d < R) ->
  exists s', add_face s n (fun i => n - i) start next step = Some s' /\ moved K s s'.
Proof.
  intros Hn Hl Hi HK HI HJ. unfold add_face.
  destruct (face_loop_ok I J n start next step (snd s) L Hn Hl Hi HI HJ) as (dofs & rem' & E & P & Ld & Lr).
  rewrite E. cbn [obind].
  destruct (triangle_remainders_ok dofs (n - 1)) as (m & Em & Pm); [lia|lia|].
  rewrite Em. cbn [obind]. exists (fst s ++ m, rem'). split; [reflexivity|].
  split; cbn [fst snd]; [|lia].
  rewrite Pm, <- app_assoc. now rewrite P.
Qed.
