(** Proofs about tree-tree collisions, closest entities and point clouds. *)
From Verif Require Import Base BaseProofs Bbox BboxSpec BboxProofs.

Section P.
Context {T : Type}.
Variable A : arith T.
Hypothesis Aok : arith_ok A.
Notation le x y := (a_leb A x y = true).
Notation le_refl := (le_refl A Aok).
Notation le_trans := (le_trans A Aok).

(** ** Two trees *)
Definition hitsT (ta tb : tr (T := T)) : list (nat * nat) :=
  map (fun p : leaf_of T * leaf_of T => (snd (fst p), snd (snd p))) (filter (fun p : leaf_of T * leaf_of T => bbox_in_bbox A (fst (fst p)) (fst (snd p))) (list_prod (leaves ta) (leaves tb))).
Definition flat (l : list (nat * nat)) : list nat := concat (map (fun p => [fst p; snd p]) l).
Lemma flat_app l m : flat (l ++ m) = flat l ++ flat m.
Proof. unfold flat. now rewrite map_app, concat_app. Qed.

Lemma prod_app_r {X Y} (l : list X) (m n : list Y) : Permutation (list_prod l (m ++ n)) (list_prod l m ++ list_prod l n).
Proof.
  induction l as [|x l IH]; [constructor|]. cbn [list_prod]. rewrite map_app, IH. rewrite <- !app_assoc. apply Permutation_app_head. rewrite !app_assoc. apply Permutation_app_tail. apply Permutation_app_comm.
Qed.
Lemma prod_app_l {X Y} (l m : list X) (n : list Y) : list_prod (l ++ m) n = list_prod l n ++ list_prod m n.
Proof. induction l as [|x l IH]; [reflexivity|]. cbn [list_prod app]. now rewrite IH, app_assoc. Qed.
Lemma filter_perm {X} (q : X -> bool) l m : Permutation l m -> Permutation (filter q l) (filter q m).
Proof.
  induction 1 as [|x l m _ IH|x y l|l m n _ IH1 _ IH2]; [constructor| | |now rewrite IH1].
  - cbn. destruct (q x); [now constructor|exact IH].
  - cbn. destruct (q x), (q y); try apply Permutation_refl. apply perm_swap.
Qed.
Lemma hits_l l r b tb : Permutation (hitsT (Nd l r b) tb) (hitsT l tb ++ hitsT r tb).
Proof. unfold hitsT. cbn [leaves]. now rewrite prod_app_l, filter_app, map_app. Qed.
Lemma hits_r ta l r b : Permutation (hitsT ta (Nd l r b)) (hitsT ta l ++ hitsT ta r).
Proof. unfold hitsT. cbn [leaves]. rewrite <- map_app, <- filter_app. apply Permutation_map, filter_perm, prod_app_r. Qed.
Lemma hits_none ta tb : good A ta -> good A tb -> bbox_in_bbox A (tbox ta) (tbox tb) = false -> hitsT ta tb = [].
Proof.
  intros Ga Gb H. unfold hitsT. rewrite filter_none; [reflexivity|]. intros (x, y) Hin. apply in_prod_iff in Hin as (Hx & Hy). cbn [fst snd].
  destruct (bbox_in_bbox A (fst x) (fst y)) eqn:E; [|reflexivity]. apply bbox_in_spec in E.
  apply (overlap_mono A Aok _ (tbox ta) _ (tbox tb)) in E; [|now apply good_sub|now apply good_sub]. apply bbox_in_spec in E. congruence.
Qed.

Lemma tree_ok nA nB n : forall ta tb a b ents, size ta + size tb <= n -> rep nA a ta -> rep nB b tb -> good A ta -> good A tb ->
  exists prs, tree_loop A n nA nB a b ents = Some (ents ++ flat prs) /\ Permutation prs (hitsT ta tb).
Proof.
  induction n as [|n IH]; intros ta tb a b ents Hn Ra Rb Ga Gb; [pose proof (size_pos ta); lia|].
  destruct (rep_box nA a ta Ra) as (ca & Ea), (rep_box nB b tb Rb) as (cb & Eb). cbn [tree_loop]. rewrite Ea. cbn [obind]. rewrite Eb. cbn [obind].
  destruct (bbox_in_bbox A (tbox ta) (tbox tb)) eqn:Hin; cbn [negb].
  2:{ exists []. rewrite hits_none by assumption. split; [now rewrite app_nil_r|constructor]. }
  assert (DA : forall l r bb c0 c1, ta = Nd l r bb -> ca = (c0, c1) -> exists prs, (e <- tree_loop A n nA nB c0 b ents ;; tree_loop A n nA nB c1 b e) = Some (ents ++ flat prs) /\ Permutation prs (hitsT ta tb)).
  { intros l r bb c0 c1 -> ->. cbn in Ra. destruct Ra as (d0 & d1 & E & _ & R0 & R1). rewrite Ea in E. injection E as <- <-. destruct Ga as (_ & Gl & Gr). cbn [size] in Hn.
    destruct (IH l tb c0 b ents ltac:(lia) R0 Rb Gl Gb) as (p0 & -> & P0). cbn [obind]. destruct (IH r tb c1 b (ents ++ flat p0) ltac:(lia) R1 Rb Gr Gb) as (p1 & -> & P1).
    exists (p0 ++ p1). rewrite flat_app, app_assoc. split; [reflexivity|]. now rewrite hits_l, P0, P1. }
  assert (DB : forall l r bb c0 c1, tb = Nd l r bb -> cb = (c0, c1) -> exists prs, (e <- tree_loop A n nA nB a c0 ents ;; tree_loop A n nA nB a c1 e) = Some (ents ++ flat prs) /\ Permutation prs (hitsT ta tb)).
  { intros l r bb c0 c1 -> ->. cbn in Rb. destruct Rb as (d0 & d1 & E & _ & R0 & R1). rewrite Eb in E. injection E as <- <-. destruct Gb as (_ & Gl & Gr). cbn [size] in Hn.
    destruct (IH ta l a c0 ents ltac:(lia) Ra R0 Ga Gl) as (p0 & -> & P0). cbn [obind]. destruct (IH ta r a c1 (ents ++ flat p0) ltac:(lia) Ra R1 Ga Gr) as (p1 & -> & P1).
    exists (p0 ++ p1). rewrite flat_app, app_assoc. split; [reflexivity|]. now rewrite hits_r, P0, P1. }
  destruct ca as (a0, a1), cb as (b0, b1). cbn [fst snd].
  destruct ta as [ea ba|la ra ba], tb as [eb bb|lb rb bb]; cbn [rep] in Ra, Rb.
  - rewrite Ea in Ra. injection Ra as -> ->. rewrite Eb in Rb. injection Rb as -> ->. unfold is_leaf. cbn [fst snd]. rewrite !Nat.eqb_refl. cbn [andb].
    exists [(ea, eb)]. split; [reflexivity|]. unfold hitsT. cbn [leaves list_prod map app filter fst snd]. cbn [tbox] in Hin. rewrite Hin. apply Permutation_refl.
  - rewrite Ea in Ra. injection Ra as -> ->. destruct Rb as (d0 & d1 & E & N & _). rewrite Eb in E. injection E as -> ->. unfold is_leaf. cbn [fst snd]. rewrite Nat.eqb_refl, (proj2 (Nat.eqb_neq _ _) N). cbn [andb]. eapply DB; reflexivity.
  - rewrite Eb in Rb. injection Rb as -> ->. destruct Ra as (d0 & d1 & E & N & _). rewrite Ea in E. injection E as -> ->. unfold is_leaf. cbn [fst snd]. rewrite Nat.eqb_refl, (proj2 (Nat.eqb_neq _ _) N). cbn [andb]. eapply DA; reflexivity.
  - destruct Ra as (d0 & d1 & E & N & _). rewrite Ea in E. injection E as -> ->. destruct Rb as (f0 & f1 & E & N' & _). rewrite Eb in E. injection E as -> ->.
    unfold is_leaf. cbn [fst snd]. rewrite (proj2 (Nat.eqb_neq _ _) N), (proj2 (Nat.eqb_neq _ _) N'). cbn [andb]. destruct (b <? a); [eapply DA|eapply DB]; reflexivity.
Qed.

(** ** Closest entity *)
Section Closest.
Variables (p : vec3 T) (dist : nat -> T).
Lemma sum3_mono u v : (forall i, i < 3 -> le (comp u i) (comp v i)) -> le (sum3 A u) (sum3 A v).
Proof.
  intro H. unfold sum3. apply (ao_add A Aok); [|apply (H 2); lia]. apply (ao_add A Aok); [|apply (H 1); lia]. apply (ao_add A Aok); [apply le_refl|apply (H 0); lia].
Qed.
Lemma sqd_mono b c : subbox A b c -> le (squared_distance_bbox A c p) (squared_distance_bbox A b p).
Proof.
  intro H. unfold squared_distance_bbox. apply (ao_add A Aok); apply sum3_mono; intros i Hi; rewrite !comp_vmap2; destruct (H i Hi) as (Hl & Hh); unfold ltb, sq.
  - pose proof (ao_sub A Aok _ _ _ _ (le_refl (comp p i)) Hl) as Hd. set (dc := a_sub A (comp p i) (comp (blo c) i)) in *. set (db := a_sub A (comp p i) (comp (blo b) i)) in *.
    destruct (a_leb A dc (a_zero A)) eqn:Ec; cbn [negb].
    + rewrite (le_trans _ _ _ Hd Ec). cbn [negb]. now apply (ao_sq_neg A Aok).
    + destruct (a_leb A db (a_zero A)); cbn [negb]; [apply (ao_sq A Aok)|apply le_refl].
  - pose proof (ao_sub A Aok _ _ _ _ (le_refl (comp p i)) Hh) as Hd. set (dc := a_sub A (comp p i) (comp (bhi c) i)) in *. set (db := a_sub A (comp p i) (comp (bhi b) i)) in *.
    destruct (a_leb A (a_zero A) dc) eqn:Ec; cbn [negb].
    + rewrite (le_trans _ _ _ Ec Hd). cbn [negb]. now apply (ao_sq_pos A Aok).
    + destruct (a_leb A (a_zero A) db); cbn [negb]; [apply (ao_sq A Aok)|apply le_refl].
Qed.

Variable cloud : bool.
(** The distance to a leaf. *)
Definition ldist (lf : leaf_of T) : T := if cloud then corner_distance A (fst lf) p else dist (snd lf).
Definition result (t : tr) (best best' : nat * T) : Prop :=
  le (snd best') (snd best) /\ (best' = best \/ exists lf, In lf (leaves t) /\ best' = (snd lf, ldist lf)).
Lemma best_id (b b' : nat * T) (t : tr) : result t b b' -> le (snd b') (snd b). Proof. now intros (H & _). Qed.

Lemma closest_any nodes t : forall n i best, size t <= n -> rep nodes i t -> exists best', closest A n nodes cloud dist p i best = Some best' /\ result t best best'.
Proof.
  induction t as [e b|l IHl r IHr b]; intros n i best Hn R; (destruct n as [|n]; [cbn in Hn; lia|]); cbn [rep] in R; cbn [closest].
  - rewrite R. cbn [obind]. unfold is_leaf. cbn [fst snd]. rewrite Nat.eqb_refl. eexists. split; [reflexivity|]. unfold result, ldist. cbn [leaves].
    destruct cloud.
    + destruct (a_leb A (corner_distance A b p) (snd best)) eqn:E; [|split; [apply le_refl|now left]]. split; [exact E|]. right. exists (b, e). split; [now left|reflexivity].
    + destruct (a_leb A (squared_distance_bbox A b p) (snd best)) eqn:E; [|rewrite E; split; [apply le_refl|now left]].
      destruct (a_leb A (dist e) (snd best)) eqn:E'; [|split; [apply le_refl|now left]]. split; [exact E'|]. right. exists (b, e). split; [now left|reflexivity].
  - destruct R as (c0 & c1 & E & N & R0 & R1). rewrite E. cbn [obind]. unfold is_leaf. cbn [fst snd]. rewrite (proj2 (Nat.eqb_neq _ _) N). cbn [size] in Hn.
    destruct (ltb A (snd best) (squared_distance_bbox A b p)); [exists best; split; [reflexivity|split; [apply le_refl|now left]]|].
    destruct (IHl n c0 best ltac:(lia) R0) as (b0 & -> & H0 & O0). cbn [obind]. destruct (IHr n c1 b0 ltac:(lia) R1) as (b1 & -> & H1 & O1). exists b1. split; [reflexivity|].
    split; [eapply le_trans; eauto|]. cbn [leaves]. destruct O1 as [->|(lf & Hlf & ->)]; [|right; exists lf; split; [apply in_or_app; now right|reflexivity]].
    destruct O0 as [->|(lf & Hlf & ->)]; [now left|]. right. exists lf. split; [apply in_or_app; now left|reflexivity].
Qed.

Lemma closest_min nodes t : good A t -> (forall lf, In lf (leaves t) -> le (squared_distance_bbox A (fst lf) p) (ldist lf)) -> forall n i best best', size t <= n -> rep nodes i t ->
  closest A n nodes cloud dist p i best = Some best' -> forall lf, In lf (leaves t) -> le (snd best') (ldist lf).
Proof.
  induction t as [e b|l IHl r IHr b]; intros G Hd n i best best' Hn R; (destruct n as [|n]; [cbn in Hn; lia|]); cbn [rep] in R; cbn [closest].
  - rewrite R. cbn [obind]. unfold is_leaf. cbn [fst snd]. rewrite Nat.eqb_refl. intro E. injection E as <-. intros lf [<-|[]]. specialize (Hd (b, e) ltac:(now left)). unfold ldist in *. cbn [fst snd] in *.
    destruct cloud.
    + destruct (a_leb A (corner_distance A b p) (snd best)) eqn:E; cbn [snd]; [apply le_refl|]. destruct (ao_total A Aok (snd best) (corner_distance A b p)) as [X|X]; [exact X|congruence].
    + destruct (a_leb A (squared_distance_bbox A b p) (snd best)) eqn:E.
      * destruct (a_leb A (dist e) (snd best)) eqn:E'; cbn [snd]; [apply le_refl|]. destruct (ao_total A Aok (snd best) (dist e)) as [X|X]; [exact X|congruence].
      * rewrite E. destruct (ao_total A Aok (snd best) (squared_distance_bbox A b p)) as [X|X]; [|congruence]. eapply le_trans; eauto.
  - destruct R as (c0 & c1 & E & N & R0 & R1). rewrite E. cbn [obind]. unfold is_leaf. cbn [fst snd]. rewrite (proj2 (Nat.eqb_neq _ _) N). cbn [size] in Hn.
    pose proof (good_sub A Aok (Nd l r b) G) as Gs. destruct G as (_ & Gl & Gr). cbn [leaves tbox] in *.
    destruct (ltb A (snd best) (squared_distance_bbox A b p)) eqn:Eb.
    + intro Ee. injection Ee as <-. intros lf Hin. apply (ltb_le A Aok) in Eb. eapply le_trans; [exact Eb|]. eapply le_trans; [apply (sqd_mono _ _ (Gs lf Hin))|exact (Hd lf Hin)].
    + destruct (closest_any nodes l n c0 best ltac:(lia) R0) as (b0 & E0 & Q0). rewrite E0. cbn [obind]. intro E1. destruct (closest_any nodes r n c1 b0 ltac:(lia) R1) as (b1 & E1' & Q1).
      rewrite E1 in E1'. injection E1' as <-. intros lf Hin. apply in_app_or in Hin as [Hin|Hin].
      * eapply le_trans; [exact (best_id _ _ _ Q1)|]. apply (IHl Gl (fun lf H => Hd lf (in_or_app _ _ _ (or_introl H))) n c0 best b0); auto. lia.
      * apply (IHr Gr (fun lf H => Hd lf (in_or_app _ _ _ (or_intror H))) n c1 b0 best'); auto. lia.
Qed.
End Closest.

(** ** Point clouds *)
Section Cloud.
Variable nth_point : nat -> list (vec3 T * nat) -> list (vec3 T * nat).
Hypothesis Hnth : forall a l, Permutation (nth_point a l) l.
Definition pleaf (q : vec3 T * nat) : leaf_of T := (mkBox (fst q) (fst q), snd q).
(** Along the first axis boxes contain their points. *)
Fixpoint good0 (t : tr (T := T)) : Prop :=
  match t with
  | Lf _ _ => True
  | Nd l r b => (forall lf : leaf_of T, In lf (leaves l ++ leaves r) -> le (v0 (blo b)) (v0 (blo (fst lf))) /\ le (v0 (bhi (fst lf))) (v0 (bhi b))) /\ good0 l /\ good0 r
  end.
Lemma point_lt_0 q m : point_lt A q m = true -> le (v0 (fst q)) (v0 (fst m)).
Proof.
  unfold point_lt. cbn [comp]. destruct (ltb A (v0 (fst q)) (v0 (fst m))) eqn:E; [intros _; now apply (ltb_le A Aok)|].
  destruct (ltb A (v0 (fst m)) (v0 (fst q))) eqn:E'; [discriminate|]. intros _. now apply (nltb_le A).
Qed.
Lemma point_nlt_0 q m : point_lt A q m = false -> le (v0 (fst m)) (v0 (fst q)).
Proof.
  unfold point_lt. cbn [comp]. destruct (ltb A (v0 (fst q)) (v0 (fst m))) eqn:E; [discriminate|]. intros _. now apply (nltb_le A).
Qed.
Lemma minmax_0 l : forall mm, le (v0 (fst (fst mm))) (v0 (fst (snd mm))) ->
  let r := fold_left (fun mm q => (if point_lt A q (fst mm) then q else fst mm, if point_lt A q (snd mm) then snd mm else q)) l mm in
  le (v0 (fst (fst r))) (v0 (fst (fst mm))) /\ le (v0 (fst (snd mm))) (v0 (fst (snd r))) /\ forall q, In q l -> le (v0 (fst (fst r))) (v0 (fst q)) /\ le (v0 (fst q)) (v0 (fst (snd r))).
Proof.
  induction l as [|q l IH]; intros mm Hmm; cbn [fold_left]; [split; [apply le_refl|]; split; [apply le_refl|intros q []]|].
  set (mm' := (if point_lt A q (fst mm) then q else fst mm, if point_lt A q (snd mm) then snd mm else q)).
  assert (H1 : le (v0 (fst (fst mm'))) (v0 (fst (fst mm))) /\ le (v0 (fst (fst mm'))) (v0 (fst q))).
  { unfold mm'. cbn [fst]. destruct (point_lt A q (fst mm)) eqn:E; [split; [now apply point_lt_0|apply le_refl]|split; [apply le_refl|now apply point_nlt_0]]. }
  assert (H2 : le (v0 (fst (snd mm))) (v0 (fst (snd mm'))) /\ le (v0 (fst q)) (v0 (fst (snd mm')))).
  { unfold mm'. cbn [snd]. destruct (point_lt A q (snd mm)) eqn:E; [split; [apply le_refl|now apply point_lt_0]|split; [now apply point_nlt_0|apply le_refl]]. }
  destruct (IH mm') as (I1 & I2 & I3); [exact (le_trans _ _ _ (proj1 H1) (le_trans _ _ _ Hmm (proj1 H2)))|]. cbv zeta in *. destruct H1 as (H1 & H1'), H2 as (H2 & H2').
  split; [exact (le_trans _ _ _ I1 H1)|]. split; [exact (le_trans _ _ _ H2 I2)|]. intros q' [->|Hin]; [|now apply I3].
  split; [exact (le_trans _ _ _ I1 H1')|exact (le_trans _ _ _ H2' I2)].
Qed.

Lemma build_points_ok fuel l nodes : 1 <= length l <= fuel -> exists i nodes' t, build_points A nth_point fuel l nodes = Some (i, nodes') /\ built nodes nodes' i t /\ good0 t /\ Permutation (leaves t) (map pleaf l).
Proof.
  revert l nodes. induction fuel as [|f IH]; intros l nodes Hl; [lia|]. destruct l as [|(x0, e0) [|x l]]; [cbn in Hl; lia| |].
  - cbn. do 3 eexists. split; [reflexivity|]. split; [apply built_leaf|]. split; [exact I|apply Permutation_refl].
  - cbn [build_points]. set (L := (x0, e0) :: x :: l) in *. destruct (minmax_element A (x0, e0) L) as (mn, mx) eqn:Emm. set (b := mkBox (fst mn) (fst mx)). set (L' := nth_point (longest A b) L). pose proof (Hnth (longest A b) L) as HP. fold L' in HP.
    assert (EL : length L' = length L) by (now apply Permutation_length). assert (H : 2 <= length L') by (rewrite EL; cbn; lia). assert (Hll : 1 <= length L' <= S f) by (rewrite EL; exact Hl). destruct (half_split L' H) as (H1 & H2 & H3 & H4).
    destruct (IH (firstn (length L' / 2) L') nodes ltac:(lia)) as (c0 & n1 & t0 & -> & B0 & G0 & P0). cbn [obind].
    destruct (IH (skipn (length L' / 2) L') n1 ltac:(lia)) as (c1 & n2 & t1 & -> & B1 & G1 & P1). cbn [obind].
    assert (HPl : Permutation (leaves t0 ++ leaves t1) (map pleaf L)). { rewrite P0, P1, <- map_app, firstn_skipn. now apply Permutation_map. }
    exists (length n2), (n2 ++ [((c0, c1), b)]), (Nd t0 t1 b). split; [reflexivity|]. split; [exact (built_node nodes n1 n2 c0 c1 t0 t1 b B0 B1)|]. split; [|exact HPl].
    cbn [good0]. split; [|auto]. intros lf Hin. apply (Permutation_in _ HPl) in Hin. apply in_map_iff in Hin as (q & <- & Hq). unfold pleaf, b. cbn [fst snd blo bhi].
    destruct (minmax_0 L ((x0, e0), (x0, e0)) (le_refl _)) as (_ & _ & M). unfold minmax_element in Emm. rewrite Emm in M. cbv zeta in M. now apply M.
Qed.
Lemma point_tree_ok l : l <> [] -> exists nodes t, point_tree A nth_point l = Some nodes /\ built [] nodes (length nodes - 1) t /\ good0 t /\ Permutation (leaves t) (map pleaf l).
Proof.
  intro H. unfold point_tree. destruct l as [|x l]; [contradiction|]. destruct (build_points_ok (length (x :: l)) (x :: l) [] ltac:(cbn; lia)) as (i & nodes & t & -> & B & G & P).
  cbn [obind]. exists nodes, t. split; [reflexivity|]. split; [|auto]. destruct B as (X & E & R). assert (length nodes - 1 = i) as -> by lia. split; auto.
Qed.
End Cloud.
End P.
